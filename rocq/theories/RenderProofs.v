(** * RenderProofs: TJ arrays (C29) and widths (C31) *)
From Coq Require Import QArith Qcanon Sorted.
From Verif Require Import Base Gfmt FontSpec FontProofs Num Fonts State TextSpec StateProofs Words WordsSpec WordProofs Parse Render RenderSpec.
Open Scope nat_scope.

Section Kerned.
Context {NUM : Num}.

Lemma kerned_skip {A} (gs : list A) : forall i j sp k, j < i ->
  kerned i gs ((j, sp) :: k) = kerned i gs k.
Proof.
  induction gs as [|g gs IH]; intros i j sp k H; cbn [kerned]; auto.
  rewrite IH by lia. unfold adjs_at. cbn [filter fst].
  replace (j =? i) with false by (symmetry; apply Nat.eqb_neq; lia). reflexivity.
Qed.
Lemma adjs_none {A} k i : Forall (fun p : nat * num => i < fst p) k -> @adjs_at NUM A k i = [].
Proof.
  intros H. unfold adjs_at. induction H as [|p k Hp _ IH]; auto. cbn [filter].
  replace (fst p =? i) with false by (symmetry; apply Nat.eqb_neq; lia). exact IH.
Qed.
Lemma kerned_gap {A} (a b : list A) : forall i k,
  Forall (fun p : nat * num => i + List.length a <= fst p) k ->
  kerned i (a ++ b) k = map Glyph a ++ kerned (i + List.length a) b k.
Proof.
  induction a as [|g a IH]; intros i k H; cbn [app map kerned List.length].
  - rewrite Nat.add_0_r. reflexivity.
  - rewrite adjs_none; [|eapply Forall_impl; [|exact H]; cbn; intros; lia]. cbn.
    rewrite (IH (S i)); [|eapply Forall_impl; [|exact H]; cbn; intros; lia].
    replace (S i + List.length a) with (i + S (List.length a)) by lia. reflexivity.
Qed.

Definition code_len (w : nat) (cs : list bytes) : Prop := Forall (fun c : bytes => List.length c = w) cs.
Lemma codes_of_concat w cs : 0 < w -> code_len w cs ->
  forall fuel, List.length (concat cs) <= fuel -> codes_of fuel w (concat cs) = cs.
Proof.
  intros Hw. induction 1 as [|c cs Hc _ IH]; intros fuel HF.
  - destruct fuel; reflexivity.
  - cbn [concat] in *. rewrite app_length in HF.
    destruct fuel as [|fuel]; [lia|].
    destruct c as [|b c]; [cbn in Hc; lia|].
    cbn [codes_of app]. change (b :: c ++ concat cs) with ((b :: c) ++ concat cs).
    f_equal.
    + rewrite firstn_app, Hc, Nat.sub_diag, firstn_O, app_nil_r. rewrite <- Hc. apply firstn_all.
    + rewrite skipn_app, Hc, Nat.sub_diag, skipn_O. rewrite (skipn_all2 (b :: c)) by lia. cbn [app].
      apply IH. cbn in *; lia.
Qed.
Lemma skipn_concat w cs p : code_len w cs -> skipn (p * w) (concat cs) = concat (skipn p cs).
Proof.
  intros H. revert p. induction H as [|c cs Hc _ IH]; intros p.
  - cbn. rewrite !skipn_nil. reflexivity.
  - destruct p as [|p]; [reflexivity|]. cbn [concat skipn].
    rewrite skipn_app, Hc. replace (S p * w - w) with (p * w) by lia.
    rewrite IH. rewrite skipn_all2 by lia. reflexivity.
Qed.
Lemma firstn_concat w cs p : code_len w cs -> firstn (p * w) (concat cs) = concat (firstn p cs).
Proof.
  intros H. revert p. induction H as [|c cs Hc _ IH]; intros p.
  - cbn. rewrite !firstn_nil. reflexivity.
  - destruct p as [|p]; [reflexivity|]. cbn [concat firstn].
    rewrite firstn_app, Hc. replace (S p * w - w) with (p * w) by lia.
    rewrite IH. f_equal. apply firstn_all2. lia.
Qed.
Lemma code_len_skipn w cs p : code_len w cs -> code_len w (skipn p cs).
Proof. intros H. rewrite <- (firstn_skipn p cs) in H. apply Forall_app in H. tauto. Qed.
Lemma code_len_firstn w cs p : code_len w cs -> code_len w (firstn p cs).
Proof. intros H. rewrite <- (firstn_skipn p cs) in H. apply Forall_app in H. tauto. Qed.

Lemma tj_events_cons w t l : tj_events w (t :: l) = tj_events w [t] ++ tj_events w l.
Proof. unfold tj_events. cbn [flat_map]. rewrite app_nil_r. reflexivity. Qed.
Lemma tj_events_str w cs : 0 < w -> code_len w cs -> tj_events w [TStr (concat cs)] = map Glyph cs.
Proof. intros Hw H. unfold tj_events. cbn. rewrite app_nil_r, codes_of_concat; auto. Qed.

Lemma skipn_skipn' {A} (l : list A) i j : skipn i (skipn j l) = skipn (j + i) l.
Proof. revert l; induction j; intros l; cbn; auto. destruct l; auto. rewrite !skipn_nil. reflexivity. Qed.

Lemma kern_loop_events w cs kern : 0 < w -> code_len w cs -> forall p,
  StronglySorted lt (map fst kern) ->
  Forall (fun e => p <= fst e < List.length cs) kern ->
  tj_events w (kern_loop (concat cs) kern w (p * w)) = kerned p (skipn p cs) kern.
Proof.
  intros Hw HC. induction kern as [|[i a] kern IH]; intros p HS HR; cbn [kern_loop].
  - rewrite (skipn_concat _ _ _ HC). rewrite tj_events_str; auto using code_len_skipn.
    pose proof (kerned_gap (skipn p cs) [] p []) as G. rewrite app_nil_r in G.
    rewrite G by constructor. cbn. rewrite app_nil_r. reflexivity.
  - cbn [map fst] in HS. apply StronglySorted_inv in HS as [HS HI].
    inversion HR as [|? ? Hi HR']; subst. cbn [fst] in Hi.
    assert (HGT : Forall (fun e : nat * num => i < fst e) kern).
    { rewrite Forall_forall in *. intros e He. apply HI. apply in_map, He. }
    rewrite !(tj_events_cons w _ (_ :: _)), (tj_events_cons w (TAdj _)).
    unfold slice. rewrite (skipn_concat _ _ _ HC).
    replace (i * w - p * w) with ((i - p) * w) by (rewrite Nat.mul_sub_distr_r; lia).
    rewrite (firstn_concat _ _ _ (code_len_skipn w cs p HC)).
    rewrite tj_events_str by auto using code_len_skipn, code_len_firstn.
    rewrite IH; auto.
    2:{ rewrite Forall_forall in *. intros e He. split; [apply Nat.lt_le_incl, HGT, He|apply HR', He]. }
    assert (HLen : List.length (firstn (i - p) (skipn p cs)) = i - p).
    { rewrite firstn_length, skipn_length. lia. }
    rewrite <- (firstn_skipn (i - p) (skipn p cs)) at 2.
    rewrite kerned_gap.
    2:{ rewrite HLen. constructor; cbn; [lia|].
        eapply Forall_impl; [|exact HGT]. cbn. intros; lia. }
    rewrite HLen, skipn_skipn'. replace (p + (i - p)) with i by lia. f_equal.
    assert (HE : List.length (skipn i cs) > 0) by (rewrite skipn_length; lia).
    destruct (skipn i cs) as [|g gs]; [cbn in HE; lia|].
    cbn [kerned]. rewrite kerned_skip by lia. unfold adjs_at at 2. cbn [filter fst].
    rewrite Nat.eqb_refl. cbn [map snd]. reflexivity.
Qed.

(** kerning lists as the code builds them *)
Definition kern_wf (len : nat) (kern : list (nat * num)) : Prop :=
  StronglySorted lt (map fst kern) /\ Forall (fun e => fst e < len) kern.
Lemma encode_kerning_events w cs kern : 0 < w -> code_len w cs ->
  kern_wf (List.length cs) kern ->
  tj_events w (encode_kerning (concat cs) kern w) = kerned 0 cs kern.
Proof.
  intros Hw HC [HS HR].
  assert (HR' : Forall (fun e : nat * num => 0 <= fst e < List.length cs) kern).
  { eapply Forall_impl; [|exact HR]. cbn; intros; lia. }
  destruct kern as [|[[|i] a] kern].
  - cbn [encode_kerning]. rewrite tj_events_str; auto.
    pose proof (kerned_gap cs [] 0 []) as G. rewrite app_nil_r in G.
    rewrite G by constructor. cbn. rewrite app_nil_r. reflexivity.
  - cbn [encode_kerning]. rewrite tj_events_cons.
    pose proof (kern_loop_events w cs kern Hw HC 0) as K. cbn [Nat.mul] in K. rewrite K.
    + cbn [skipn]. inversion HR' as [|? ? H0 _]; subst. cbn in H0.
      destruct cs as [|g gs]; [cbn in H0; lia|].
      cbn [kerned]. rewrite kerned_skip by lia. reflexivity.
    + cbn in HS. apply StronglySorted_inv in HS. tauto.
    + inversion HR'; auto.
  - pose proof (kern_loop_events w cs ((S i, a) :: kern) Hw HC 0 HS HR') as K. exact K.
Qed.

(** the encoded text is one code of the font's width per character *)
Lemma font_encode_codes f s cs b cs' :
  (is_builtin f = false -> (cm_next (cs_get cs f) + N.of_nat (List.length s) < 65536)%N) ->
  (is_builtin f = false -> forall e, In e (cm_entries (cs_get cs f)) -> (snd e < cm_next (cs_get cs f))%N) ->
  font_encode f s cs = (b, cs') ->
  exists codes, b = concat codes /\ code_len (encoding_width f) codes /\ List.length codes = List.length s.
Proof.
  unfold font_encode, encoding_width. destruct (is_builtin f); intros HB HE E.
  - injection E as <- <-. exists (map (fun c => [cp1252_char c]) s). unfold encode_builtin.
    split; [|split].
    + clear. induction s; cbn; congruence.
    + apply Forall_map. apply Forall_forall. auto.
    + apply map_length.
  - specialize (HB eq_refl). specialize (HE eq_refl).
    unfold encode_subset in E. destruct (translate (cs_get cs f) s) as [is m'] eqn:T.
    injection E as <- <-.
    assert (H : List.length is = List.length s /\ Forall (fun i => (i < 65536)%N) is).
    { revert HB HE T. generalize (cs_get cs f). clear. revert is m'.
      induction s as [|c s IH]; intros is m' m HB HE T; cbn in T.
      - injection T as <- <-. auto.
      - destruct (cid_get m c) as [i m1] eqn:G. destruct (translate m1 s) as [is' m2] eqn:T2.
        injection T as <- <-. cbn [List.length] in HB.
        unfold cid_get in G. destruct (find _ _) as [e|] eqn:F.
        + injection G as <- <-. apply find_some in F as [F _]. pose proof (HE _ F).
          destruct (IH _ _ m ltac:(lia) HE T2). split; [cbn; lia|]. constructor; auto. lia.
        + injection G as <- <-.
          assert (H1 : (cm_next m + 1 + N.of_nat (List.length s) < 65536)%N) by lia.
          assert (H2 : forall e, In e (cm_entries m ++ [(c, cm_next m)]) -> (snd e < cm_next m + 1)%N).
          { intros e He. apply in_app_or in He as [He|[<-|[]]]; [pose proof (HE _ He)|cbn]; lia. }
          destruct (IH _ _ (mkCids (cm_entries m ++ [(c, cm_next m)]) (cm_next m + 1)) H1 H2 T2).
          split; [cbn; lia|]. constructor; auto. lia. }
    destruct H as [HL HF]. exists (map utf16be_char is). split; [|split].
    + apply flat_map_concat_map.
    + apply Forall_map. eapply Forall_impl; [|exact HF]. cbn. intros i Hi.
      unfold utf16be_char. destruct (i <? 65536)%N eqn:E; auto. lia.
    + rewrite map_length. exact HL.
Qed.
End Kerned.

(** ** Widths, in exact arithmetic *)
Section Width.
Context {ENV : Env QcNum}.
Open Scope Qc_scope.

Ltac k1000 := change (@n1000 QcNum) with thousand; change (Q2Qc (inject_Z 1000)) with thousand.
Ltac qring := cbn [num nadd nsub nmul ndiv nneg QcNum]; rewrite ?Qcdiv_def;
  match goal with |- @eq _ ?a ?b => apply (eq_trans (y := Qcplus a 0) (eq_sym (Qcplus_0_r a))) end; ring.
Definition sumw (f : font) (s : str) : Qc := @nsum QcNum (map (charwidth f) s).
Definition sumk (k : list (nat * @num QcNum)) : Qc := @nsum QcNum (map snd k).
Lemma sumk_cons p k : sumk (p :: k) = snd p + sumk k.
Proof. unfold sumk. cbn [map]. apply nsum_cons_Qc. Qed.
Lemma sumk_app a b : sumk (a ++ b) = sumk a + sumk b.
Proof. unfold sumk. rewrite map_app. apply nsum_app_Qc. Qed.
Lemma sumw_cons f c s : sumw f (c :: s) = charwidth f c + sumw f s.
Proof. unfold sumw. cbn [map]. apply nsum_cons_Qc. Qed.
Lemma sumw_app f a b : sumw f (a ++ b) = sumw f a + sumw f b.
Proof. unfold sumw. rewrite map_app. apply nsum_app_Qc. Qed.
Lemma nsum_nil_Qc : @nsum QcNum [] = 0.
Proof. apply Qc_is_canon. reflexivity. Qed.

Lemma sumk_nil : sumk [] = 0. Proof. apply nsum_nil_Qc. Qed.
Lemma sumk_single p : sumk [p] = snd p.
Proof. rewrite sumk_cons, sumk_nil. apply Qcplus_0_r. Qed.
Lemma sumw_nil f : sumw f [] = 0. Proof. apply nsum_nil_Qc. Qed.

Lemma advance_app f z (a b : list (@ev QcNum char)) : advance f z (a ++ b) = advance f z a + advance f z b.
Proof.
  induction a as [|[c|x] a IH]; cbn [app advance].
  - ring.
  - rewrite IH. ring.
  - rewrite IH. ring.
Qed.
Lemma advance_adjs f z k i :
  advance f z (adjs_at k i) = sumk (filter (fun p => fst p =? i)%nat k) / thousand * z.
Proof.
  unfold adjs_at. induction k as [|p k IH]; cbn [filter map].
  - rewrite sumk_nil. cbn. rewrite ?Qcdiv_def. ring.
  - destruct (fst p =? i)%nat; [|exact IH]. cbn [map advance]. rewrite IH, sumk_cons.
    cbn [nneg QcNum]. rewrite ?Qcdiv_def. ring.
Qed.
Lemma sumk_split (k : list (nat * @num QcNum)) p q r :
  (forall x, r x = orb (p x) (q x)) -> (forall x, andb (p x) (q x) = false) ->
  sumk (filter r k) = sumk (filter p k) + sumk (filter q k).
Proof.
  intros HR HD. induction k as [|x k IH]; cbn [filter].
  - rewrite !sumk_nil. ring.
  - rewrite HR. specialize (HD x). destruct (p x), (q x); cbn [orb andb] in *; try discriminate;
      rewrite ?sumk_cons, IH; ring.
Qed.
Lemma advance_kerned f z s k : forall i,
  advance f z (kerned i s k) =
  sumw f s / thousand * z
  + sumk (filter (fun p => (i <=? fst p) && (fst p <? i + List.length s))%nat k) / thousand * z.
Proof.
  induction s as [|c s IH]; intros i; cbn [kerned].
  - replace (filter _ k) with (@nil (nat * @num QcNum)).
    + rewrite sumw_nil, sumk_nil. cbn. rewrite ?Qcdiv_def. ring.
    + symmetry. induction k as [|p k IHk]; cbn [filter List.length]; auto.
      replace ((i <=? fst p) && (fst p <? i + 0))%nat with false by lia. exact IHk.
  - rewrite advance_app. cbn [advance]. rewrite advance_adjs, IH, sumw_cons.
    rewrite (sumk_split k (fun p => fst p =? i)%nat
               (fun p => (S i <=? fst p) && (fst p <? S i + List.length s))%nat
               (fun p => (i <=? fst p) && (fst p <? i + List.length (c :: s)))%nat).
    + rewrite ?Qcdiv_def. ring.
    + intros x. cbn [List.length]. lia.
    + intros x. lia.
Qed.
Lemma advance_kerned_all f z s k : Forall (fun p => fst p < List.length s)%nat k ->
  advance f z (kerned 0 s k) = (sumw f s + sumk k) / thousand * z.
Proof.
  intros H. rewrite advance_kerned. replace (filter _ k) with k.
  - rewrite ?Qcdiv_def. ring.
  - symmetry. clear -H. induction H as [|p k Hp _ IH]; auto. cbn [filter].
    replace ((0 <=? fst p) && (fst p <? 0 + List.length s))%nat with true by lia. f_equal. exact IH.
Qed.

(** a fragment whose recorded width is what a reader sees *)
Definition slug_ok (s : slug) : Prop :=
  sl_txt s <> [] /\ kern_wf (List.length (sl_txt s)) (sl_kern s) /\ sl_width s = slug_advance s.
Lemma slug_width_eq s : kern_wf (List.length (sl_txt s)) (sl_kern s) ->
  slug_advance s = (sumw (st_font (sl_state s)) (sl_txt s) + sumk (sl_kern s)) / thousand
                   * st_size (sl_state s).
Proof. intros [_ H]. apply advance_kerned_all, H. Qed.

Lemma font_kern_wf f t prev : kern_wf (List.length t) (font_kern f t prev).
Proof.
  unfold font_kern. destruct (kerntab f) as [tab|]; [|split; constructor].
  unfold kern. split.
  - destruct prev; apply kern_from_sorted.
  - apply Forall_forall. intros [i k] Hin. cbn.
    assert (PW : forall (l : list char), List.length (pairwise l) = (List.length l - 1)%nat).
    { intros l. induction l as [|a [|b l] IH]; auto. cbn [pairwise List.length] in *. lia. }
    destruct prev as [p|]; apply kern_from_in in Hin as (a & b & H & Hle & _).
    + assert (H' : nth_error (pairwise (p :: t)) (i - 0) <> None) by congruence.
      apply nth_error_Some in H'. rewrite PW in H'. cbn in H'. lia.
    + assert (H' : nth_error (pairwise t) (i - 1) <> None) by congruence.
      apply nth_error_Some in H'. rewrite PW in H'. lia.
Qed.
Lemma slug_new_ok t st prev : t <> [] -> slug_ok (slug_new t st prev).
Proof.
  intros N. split; [exact N|]. split; [apply font_kern_wf|].
  rewrite slug_width_eq by apply font_kern_wf. cbn. unfold font_width. k1000.
  change (@nsum QcNum (map (charwidth (st_font st)) t)) with (sumw (st_font st) t).
  change (@nsum QcNum (map snd (font_kern (st_font st) t prev))) with (sumk (font_kern (st_font st) t prev)).
  rewrite ?Qcdiv_def. ring.
Qed.
Lemma ntruthy_false (x : Qc) : @ntruthy QcNum x = false -> x = 0.
Proof.
  unfold ntruthy. rewrite negb_false_iff. intros H. apply Qceqb_eq in H. subst x.
  apply Qc_is_canon. reflexivity.
Qed.
Lemma ntruthy_true (x : Qc) : @ntruthy QcNum x = true -> x <> 0.
Proof.
  unfold ntruthy. rewrite negb_true_iff. intros H C. subst x.
  apply Qceqb_neq in H. apply H. apply Qc_is_canon. reflexivity.
Qed.
Lemma thousand_neq : thousand <> 0.
Proof. intros C. apply (f_equal this) in C. discriminate. Qed.

Lemma sorted_snoc l n : StronglySorted lt l -> Forall (fun x => x < n)%nat l ->
  StronglySorted lt (l ++ [n]).
Proof.
  induction l as [|x l IH]; intros HS HM.
  - cbn. constructor; constructor.
  - inversion HM; subst. apply StronglySorted_inv in HS as [HS HX]. cbn. constructor; auto.
    apply Forall_app; auto.
Qed.
Lemma slug_with_hyphen_ok s : slug_ok s -> slug_ok (slug_with_hyphen s).
Proof.
  intros (N & [HS HR] & W).
  assert (WF : kern_wf (List.length (sl_txt (slug_with_hyphen s))) (sl_kern (slug_with_hyphen s))).
  { cbn. rewrite app_length. cbn.
    assert (HR' : Forall (fun e : nat * num => (fst e < List.length (sl_txt s) + 1)%nat) (sl_kern s)).
    { eapply Forall_impl; [|exact HR]. cbn; intros; lia. }
    destruct (ntruthy _); [|split; auto]. split.
    - rewrite map_app. apply sorted_snoc; [exact HS|].
      apply Forall_forall. intros x Hx. apply in_map_iff in Hx as (e & <- & He).
      rewrite Forall_forall in HR. apply HR, He.
    - apply Forall_app. split; auto. constructor; auto. cbn. lia. }
  split; [|split; [exact WF|]].
  - cbn. destruct (sl_txt s); cbn; congruence.
  - rewrite (slug_width_eq _ WF). cbn. rewrite W, slug_width_eq by (split; auto).
    rewrite sumw_app, sumw_cons, sumw_nil. k1000.
    destruct (ntruthy (charkern _ _ _)) eqn:T.
    + rewrite sumk_app, sumk_single. cbn [snd].
      rewrite ?Qcdiv_def. ring.
    + apply ntruthy_false in T. rewrite T. rewrite ?Qcdiv_def. ring.
Qed.
Lemma slug_without_init_kern_ok s : slug_ok s -> slug_ok (slug_without_init_kern s).
Proof.
  intros (N & [HS HR] & W). unfold slug_without_init_kern.
  destruct (sl_kern s) as [|[[|i] k] r] eqn:E; try (split; [|split]; auto; rewrite E; split; auto).
  assert (WF : kern_wf (List.length (sl_txt s)) r).
  { cbn in HS. apply StronglySorted_inv in HS as [HS _]. inversion HR; subst. split; auto. }
  split; [exact N|]. split; [exact WF|].
  rewrite slug_width_eq by exact WF. cbn. rewrite W, slug_width_eq by (rewrite E; split; auto).
  rewrite E, sumk_cons. k1000. cbn. rewrite ?Qcdiv_def. ring.
Qed.
Lemma pdiv_ok (a b q : Qc) : @pdiv QcNum a b = Ok q -> b <> 0 /\ q = a / b.
Proof.
  unfold pdiv. destruct (@neqb QcNum b n0) eqn:E; [discriminate|]. intros H. apply Ok_inj in H.
  split; [|auto]. intros ->. apply Qceqb_neq in E. apply E, Qc_is_canon. reflexivity.
Qed.
Lemma slug_indent_ok s (amount : Qc) s' : slug_ok s -> slug_indent s amount = Ok s' ->
  slug_ok s' /\ sl_width s' = sl_width s + amount.
Proof.
  intros (N & [HS HR] & W). unfold slug_indent.
  destruct (@ntruthy QcNum amount) eqn:T.
  2:{ intros E. apply Ok_inj in E. subst s'. apply ntruthy_false in T. subst amount.
      split; [split; [|split]; auto; split; auto|]. qring. }
  destruct (slug_has_init_kern s) eqn:I; [discriminate|].
  intros E. apply bind_ok in E as (q & Q & E). apply pdiv_ok in Q as [Z Q]. apply Ok_inj in E. subst s'.
  assert (WF : kern_wf (List.length (sl_txt s)) ((0%nat, q * thousand) :: sl_kern s)).
  { split.
    - cbn. constructor; auto. unfold slug_has_init_kern in I.
      destruct (sl_kern s) as [|[[|i] k] r]; try discriminate; constructor; cbn in *; [lia|].
      apply StronglySorted_inv in HS as [_ HS]. eapply Forall_impl; [|exact HS]. cbn; intros; lia.
    - constructor; auto. cbn. destruct (sl_txt s); [congruence|cbn; lia]. }
  split; [|reflexivity]. split; [exact N|]. split; [exact WF|].
  rewrite slug_width_eq by exact WF. cbn. rewrite W, slug_width_eq by (split; auto).
  rewrite sumk_cons. cbn. subst q. rewrite ?Qcdiv_def. k1000.
  assert (H1 : / thousand * thousand = 1) by (rewrite Qcmult_comm; apply Qcmult_inv_r, thousand_neq).
  assert (H2 : / st_size (sl_state s) * st_size (sl_state s) = 1) by (rewrite Qcmult_comm; apply Qcmult_inv_r, Z).
  transitivity (sumw (st_font (sl_state s)) (sl_txt s) * / thousand * st_size (sl_state s)
    + sumk (sl_kern s) * / thousand * st_size (sl_state s)
    + amount * (/ st_size (sl_state s) * st_size (sl_state s)) * (/ thousand * thousand)).
  - rewrite H1, H2. ring.
  - ring.
Qed.
End Width.
