(** * LayoutPages: paragraphs over pages: what is where. *)
From Coq Require Import QArith Qcanon.
From Verif Require Import Base Num Fonts State Style TextSpec StateProofs Words WordsSpec WordProofs WordOps
  Parse Render RenderSpec Firstfit LineSpec FirstfitProofs WordWidth FirstfitWidth KnuthPlass Optimum
  Common Draw TextBlock Layout LayoutSpec LayoutProofs LayoutText Properties_Style Properties_Text.
Open Scope nat_scope.

Section Pages.
Context {NUM : Num} {ENV : Env NUM}.

(** ** Filling pages *)
Lemma fill_loop_rest fuel : forall filled doc completed doc',
  fill_loop fuel filled doc = Ok (completed, doc') ->
  forall k, doc' (S k) = doc (List.length completed + S k).
Proof.
  induction fuel as [|fuel IH]; intros filled doc completed doc' E k; [discriminate|]. cbn [fill_loop] in E.
  destruct (skipn (List.length (pf_todo (doc 0))) filled) as [|c r].
  - apply bind_ok in E as (x & _ & E). apply Ok_inj in E. injection E as <- <-. reflexivity.
  - apply bind_ok in E as ([c' d'] & E1 & E). apply Ok_inj in E. injection E as <- <-. cbn [fst snd] in *.
    rewrite (IH _ _ _ _ E1 k). reflexivity.
Qed.
(** what is on the first pages *)
Definition cols_upto (doc : nat -> pagefill) (n : nat) : list colfill :=
  flat_map (fun k => pf_done (doc k) ++ pf_todo (doc k)) (seq 0 n).
Definition shapes_upto (doc : nat -> pagefill) (n : nat) : list shaped := flat_map col_shapes (cols_upto doc n).

Record fresh_rest (doc : nat -> pagefill) : Prop := {
  fr_open : open_pages doc;
  fr_done : forall k, pf_done (doc (S k)) = [];
  fr_todo : forall i, cf_blocks (flat_todo doc (S i)) = [] }.

Lemma flat_map_seq_S {A} (f : nat -> list A) n : flat_map f (seq 0 (S n)) = flat_map f (seq 0 n) ++ f n.
Proof. rewrite seq_S, flat_map_app. cbn. rewrite app_nil_r. reflexivity. Qed.
Lemma off_last doc n : off doc (S n) = off doc n + List.length (pf_todo (doc n)).
Proof. unfold off. rewrite seq_S, map_app, list_sum_app. cbn. lia. Qed.
Lemma off_ge doc n : open_pages doc -> n <= off doc n.
Proof.
  intros O. induction n as [|n IH]; [lia|]. rewrite off_last. specialize (O n). destruct (pf_todo (doc n)); [congruence|]. cbn. lia.
Qed.
Lemma cols_new filled doc comp doc' n : (forall k, page_ok filled doc k (sapp comp doc' k)) ->
  (forall k, pf_done (doc (S k)) = []) ->
  cols_upto (sapp comp doc') (S n) = pf_done (doc 0) ++ map (newcol filled doc) (seq 0 (off doc (S n))).
Proof.
  intros P D. unfold cols_upto. induction n as [|n IH].
  - cbn [seq flat_map]. rewrite app_nil_r. rewrite (proj2 (P 0)). f_equal. f_equal. unfold off. cbn. rewrite Nat.add_0_r. reflexivity.
  - rewrite flat_map_seq_S, IH, (proj2 (P (S n))), D. cbn [app]. rewrite <- app_assoc. f_equal.
    rewrite <- map_app. f_equal. rewrite off_last with (n := S n), seq_app. reflexivity.
Qed.
Lemma cols_old doc n : open_pages doc -> (forall k, pf_done (doc (S k)) = []) ->
  cols_upto doc (S n) = pf_done (doc 0) ++ map (flat_todo doc) (seq 0 (off doc (S n))).
Proof.
  intros O D. unfold cols_upto. induction n as [|n IH].
  - cbn [seq flat_map]. rewrite app_nil_r. f_equal. unfold off. cbn [seq map list_sum fold_right]. rewrite Nat.add_0_r.
    symmetry. apply (todo_as_flat doc 0 O).
  - rewrite flat_map_seq_S, IH, D. cbn [app]. rewrite <- app_assoc. f_equal.
    rewrite off_last with (n := S n), seq_app, map_app. f_equal. symmetry. apply (todo_as_flat doc (S n) O).
Qed.
Lemma shapes_adds added : forall cs out, adds cs added out -> (forall i, cf_blocks (cs (S i)) = []) ->
  flat_map col_shapes out = match added with [] => [] | _ => col_shapes (cs 0) ++ concat added end.
Proof.
  assert (G : forall cs out, adds cs added out -> (forall i, cf_blocks (cs i) = []) ->
    flat_map col_shapes out = concat added).
  { induction added as [|x added IH]; intros cs out A F; [apply adds_length in A; destruct out; [reflexivity|discriminate]|].
    apply adds_cons in A as (o & r & -> & -> & A). cbn [flat_map concat]. rewrite (IH _ _ A) by (intros; apply F).
    f_equal. destruct (fold_add (cs 0) x) as (_ & -> & _). unfold col_shapes. rewrite F. reflexivity. }
  intros cs out A F. destruct added as [|x added]; [apply adds_length in A; destruct out; [reflexivity|discriminate]|].
  apply adds_cons in A as (o & r & -> & -> & A). cbn [flat_map concat].
  destruct (fold_add (cs 0) x) as (_ & -> & _). rewrite <- app_assoc. do 2 f_equal.
  assert (A' := A). clear A. revert A'. clear -F. revert r. generalize (sdrop 1 cs) (fun i => F i : cf_blocks (sdrop 1 cs i) = []).
  clear F. induction added as [|x added IH]; intros cs' F r A; [apply adds_length in A; destruct r; [reflexivity|discriminate]|].
  apply adds_cons in A as (o & r' & -> & -> & A). cbn [flat_map concat]. rewrite (IH _ (fun i => F (S i)) _ A).
  f_equal. destruct (fold_add (cs' 0) x) as (_ & -> & _). unfold col_shapes. rewrite F. reflexivity.
Qed.
Lemma no_shapes (f : nat -> colfill) l : (forall i, In i l -> cf_blocks (f i) = []) -> flat_map col_shapes (map f l) = [].
Proof.
  induction l as [|i l IH]; intros H; [reflexivity|]. cbn [map flat_map]. rewrite IH by (intros; apply H; right; assumption).
  unfold col_shapes. rewrite H by (left; reflexivity). reflexivity.
Qed.
Lemma seq_S0 n : 0 < n -> seq 0 n = 0 :: seq 1 (n - 1).
Proof. destruct n; [lia|]. cbn. rewrite Nat.sub_0_r. reflexivity. Qed.
Lemma fill_shapes doc added filled comp doc' : fresh_rest doc -> added <> [] ->
  adds (flat_todo doc) added filled ->
  (forall k, page_ok filled doc k (sapp comp doc' k)) ->
  forall n, List.length filled <= n ->
  shapes_upto (sapp comp doc') (S n) = shapes_upto doc (S n) ++ concat added.
Proof.
  intros [O D T] NE A P n L. unfold shapes_upto. rewrite (cols_new _ _ _ _ _ P D), (cols_old doc n O D), !flat_map_app, <- app_assoc. f_equal.
  pose proof (off_ge doc (S n) O) as OG. set (m := off doc (S n)) in *.
  assert (E : seq 0 m = seq 0 (List.length filled) ++ seq (List.length filled) (m - List.length filled)).
  { rewrite <- seq_app. f_equal. lia. }
  rewrite E at 1. rewrite map_app, flat_map_app.
  rewrite (map_ext_in (newcol filled doc) (flat_todo doc) (seq (List.length filled) _)).
  2:{ intros i I. apply in_seq in I. unfold newcol. rewrite nth_overflow by lia. reflexivity. }
  rewrite (no_shapes (flat_todo doc) (seq (List.length filled) _)).
  2:{ intros i I. apply in_seq in I. pose proof (adds_length _ _ _ A). destruct added; [congruence|]. cbn in H. destruct i; [lia|]. apply T. }
  rewrite app_nil_r. rewrite (map_ext_in (newcol filled doc) (fun i => nth i filled no_col) (seq 0 (List.length filled))).
  2:{ intros i I. apply in_seq in I. unfold newcol. apply nth_indep. lia. }
  rewrite map_nth_seq. rewrite (shapes_adds _ _ _ A T). destruct added; [congruence|].
  rewrite (seq_S0 m) by lia. cbn [map flat_map]. rewrite (no_shapes (flat_todo doc)).
  - rewrite app_nil_r. reflexivity.
  - intros i I. apply in_seq in I. destruct i; [lia|]. apply T.
Qed.
Lemma fill_fresh doc filled (comp : list pagefill) doc' : fresh_rest doc -> filled <> [] ->
  (forall k, doc' (S k) = doc (List.length comp + S k)) ->
  (forall j, flat_todo doc' j = newcol filled doc (List.length filled - 1 + j)) -> open_pages doc' -> fresh_rest doc'.
Proof.
  intros [O D T] NE R F O'. split; [exact O'| |].
  - intros k. rewrite R. replace (_ + S k) with (S (List.length comp + k)) by lia. apply D.
  - intros i. rewrite F. unfold newcol. destruct filled as [|c f]; [congruence|]. rewrite nth_overflow by (cbn; lia).
    cbn [List.length]. replace (_ - 1 + S i) with (S (List.length f + i)) by lia. apply T.
Qed.

(** ** All blocks *)
Definition page_like (p q : pagefill) : Prop :=
  pf_base p = pf_base q /\ map cf_box (pf_done p ++ pf_todo p) = map cf_box (pf_done q ++ pf_todo q).
Lemma page_like_trans p q r : page_like p q -> page_like q r -> page_like p r.
Proof. intros [A B] [C D]. split; congruence. Qed.
Lemma adds_boxes cs added : forall out, adds cs added out -> forall i, i < List.length added ->
  cf_box (nth i out (cs i)) = cf_box (cs i).
Proof.
  intros out -> i L. rewrite nth_indep with (d' := fold_left cf_add (nth i added []) (cs i)) by (rewrite map_length, seq_length; exact L).
  rewrite (map_nth (fun i => fold_left cf_add (nth i added []) (cs i)) (seq 0 (List.length added)) i i).
  rewrite seq_nth by exact L. apply fold_add.
Qed.
Lemma page_ok_like doc added filled k p : open_pages doc -> adds (flat_todo doc) added filled ->
  page_ok filled doc k p -> page_like p (doc k).
Proof.
  intros O A [B C]. split; [exact B|]. rewrite C, !map_app. f_equal.
  rewrite <- (todo_as_flat doc k O) at 2. rewrite !map_map. apply map_ext. intros i. unfold newcol.
  destruct (Nat.ltb_spec i (List.length filled)) as [L|L].
  - rewrite (adds_length _ _ _ A) in L. apply (adds_boxes _ _ _ A i L).
  - rewrite nth_overflow by exact L. reflexivity.
Qed.
Lemma sapp_app {A} (a b : list A) s k : sapp (a ++ b) s k = sapp a (sapp b s) k.
Proof.
  unfold sapp. destruct (Nat.ltb_spec k (List.length a)) as [L|L].
  - rewrite nth_error_app1 by exact L. destruct (nth_error a k) eqn:E; [reflexivity|]. apply nth_error_None in E. lia.
  - rewrite nth_error_app2 by exact L. assert (nth_error a k = None) as -> by (apply nth_error_None; exact L).
    destruct (nth_error b (k - List.length a)); [reflexivity|]. f_equal. rewrite app_length. lia.
Qed.
Lemma sapp_ge {A} (a : list A) s k : sapp a s (List.length a + k) = s k.
Proof. unfold sapp. assert (nth_error a (List.length a + k) = None) as -> by (apply nth_error_None; lia). f_equal. lia. Qed.
Lemma sapp_lt {A} (a : list A) s k x : nth_error a k = Some x -> sapp a s k = x.
Proof. unfold sapp. intros ->. reflexivity. Qed.
Lemma map_sapp {A B} (f : A -> B) (a : list A) s n :
  map (fun k => f (sapp a s k)) (seq 0 (List.length a + n)) = map f a ++ map (fun k => f (s k)) (seq 0 n).
Proof.
  rewrite seq_app, map_app. f_equal.
  - rewrite <- (map_map (sapp a s) f). f_equal. destruct a as [|x a]; [reflexivity|].
    transitivity (map (fun i => nth i (x :: a) x) (seq 0 (List.length (x :: a)))); [|apply map_nth_seq]. apply map_ext_in. intros i I. apply in_seq in I. apply sapp_lt.
    apply nth_error_nth'. lia.
  - rewrite (seq_off_shift (0 + List.length a)), map_map. apply map_ext. intros i. cbn [plus]. rewrite sapp_ge. reflexivity.
Qed.
Lemma shapes_sapp comp doc n : shapes_upto (sapp comp doc) (List.length comp + n)
  = flat_map (fun p => flat_map col_shapes (pf_done p ++ pf_todo p)) comp ++ shapes_upto doc n.
Proof.
  unfold shapes_upto, cols_upto. rewrite !(flat_map_concat_map (fun k => pf_done _ ++ _)).
  rewrite (map_sapp (fun p => pf_done p ++ pf_todo p) comp doc n).
  rewrite concat_app, flat_map_app. f_equal. rewrite <- flat_map_concat_map.
  induction comp; cbn [flat_map]; [reflexivity|]. rewrite flat_map_app. f_equal. assumption.
Qed.
(** [b] put the shapes [s] into some columns that satisfy [J] *)
Definition gives_shapes (J : (nat -> colfill) -> Prop) (fuel : nat) (base : full) (b : block) (s : list shaped) : Prop :=
  exists cs added out, J cs /\ block_columns fuel b base cs = Ok out /\ added <> [] /\ adds cs added out /\ s = concat added.
(** the columns for the next block *)
Definition next_cols (out : list colfill) (cs : nat -> colfill) : nat -> colfill :=
  fun j => nth (List.length out - 1 + j) out (cs (List.length out - 1 + j)).
(** [b] only adds to the columns, and keeps what is assumed of them *)
Definition adding (J : (nat -> colfill) -> Prop) (K : colfill -> Prop) (fuel : nat) (base : full) (b : block) : Prop :=
  forall cs out, J cs -> block_columns fuel b base cs = Ok out ->
    only_adds cs out /\ Forall K out /\ J (next_cols out cs).
Definition pointwise (J : (nat -> colfill) -> Prop) : Prop :=
  forall cs cs', (forall i, cs i = cs' i) -> J cs -> J cs'.
Definition page_all (K : colfill -> Prop) (p : pagefill) : Prop := Forall K (pf_done p ++ pf_todo p).
Lemma page_ok_all K doc filled k p : open_pages doc -> Forall K filled -> (forall k, page_all K (doc k)) ->
  page_ok filled doc k p -> page_all K p.
Proof.
  intros O F D [_ C]. unfold page_all. rewrite C. specialize (D k). unfold page_all in D. apply Forall_app in D as [D1 D2].
  apply Forall_app. split; [exact D1|]. rewrite <- (todo_as_flat doc k O) in D2.
  apply Forall_forall. intros c I. apply in_map_iff in I as (i & <- & I). unfold newcol.
  destruct (Nat.ltb_spec i (List.length filled)) as [L|L].
  - rewrite Forall_forall in F. apply F, nth_In, L.
  - rewrite nth_overflow by exact L. rewrite Forall_forall in D2. apply D2, in_map, I.
Qed.
Lemma auto_loop_spec J K fuel base blocks : pointwise J ->
  forall doc comp doc', Forall (adding J K fuel base) blocks ->
  auto_loop fuel blocks base doc = Ok (comp, doc') -> fresh_rest doc -> J (flat_todo doc) -> (forall k, page_all K (doc k)) ->
  fresh_rest doc' /\ Forall (fun p => pf_todo p = []) comp
  /\ (forall k, page_like (sapp comp doc' k) (doc k))
  /\ (forall k, page_all K (sapp comp doc' k))
  /\ exists pieces n0, Forall2 (gives_shapes J fuel base) blocks pieces
     /\ forall n, n0 <= n -> shapes_upto (sapp comp doc') (S n) = shapes_upto doc (S n) ++ concat pieces.
Proof.
  intros PJ. induction blocks as [|b blocks IH]; intros doc comp doc' AD E F JD KD.
  - apply Ok_inj in E. injection E as <- <-. split; [exact F|]. split; [constructor|].
    assert (S0 : forall k, sapp [] doc k = doc k).
    { intros k. unfold sapp. replace (nth_error [] k) with (@None pagefill) by (destruct k; reflexivity).
      cbn. rewrite Nat.sub_0_r. reflexivity. }
    split; [intros k; rewrite S0; split; reflexivity|]. split; [intros k; rewrite S0; apply KD|].
    exists [], 0. split; [constructor|]. intros n _. rewrite app_nil_r. change (S n) with (List.length (@nil pagefill) + S n).
    rewrite shapes_sapp. reflexivity.
  - inversion AD as [|? ? AD1 AD2]; subst. cbn [auto_loop] in E. apply bind_ok in E as (cols & E1 & E). apply bind_ok in E as ([c1 d1] & E2 & E).
    apply bind_ok in E as ([c2 d2] & E3 & E). apply Ok_inj in E. cbn [fst snd] in *. injection E as <- <-.
    destruct (AD1 _ _ JD E1) as ((NE & added & A) & KO & JN).
    assert (AN : added <> []). { intros ->. apply adds_length in A. destruct cols; [congruence|discriminate]. }
    unfold fill_into in E2. destruct cols as [|col cols]; [congruence|]. set (filled := col :: cols) in *.
    destruct (fill_loop_spec (S (List.length filled)) filled doc ltac:(lia) NE (fr_open _ F)) as (c1' & d1' & E2' & P & DN & FT & O1).
    rewrite E2 in E2'. apply Ok_inj in E2'. injection E2' as <- <-.
    pose proof (fill_loop_rest _ _ _ _ _ E2) as R.
    assert (F1 : fresh_rest d1) by (eapply fill_fresh; eauto).
    assert (J1 : J (flat_todo d1)). { eapply PJ; [|exact JN]. intros i. rewrite FT. reflexivity. }
    assert (K1 : forall k, page_all K (sapp c1 d1 k)).
    { intros k. eapply page_ok_all; [apply (fr_open _ F)|exact KO|exact KD|apply P]. }
    assert (K1' : forall k, page_all K (d1 k)).
    { intros k. specialize (K1 (List.length c1 + k)). rewrite sapp_ge in K1. exact K1. }
    destruct (IH _ _ _ AD2 E3 F1 J1 K1') as (F2 & DN2 & PL & KL & pieces & n0 & PS & SH).
    split; [exact F2|]. split; [apply Forall_app; auto|]. split; [|split].
    + intros k. rewrite sapp_app. eapply page_like_trans; [|eapply page_ok_like; [apply (fr_open _ F)|exact A|apply P]].
      destruct (Nat.ltb_spec k (List.length c1)) as [L|L].
      * destruct (nth_error c1 k) as [x|] eqn:N; [|apply nth_error_None in N; lia].
        rewrite !(sapp_lt _ _ _ _ N). split; reflexivity.
      * replace k with (List.length c1 + (k - List.length c1)) by lia. rewrite !sapp_ge. apply PL.
    + intros k. rewrite sapp_app. destruct (Nat.ltb_spec k (List.length c1)) as [L|L].
      * destruct (nth_error c1 k) as [x|] eqn:N; [|apply nth_error_None in N; lia].
        rewrite (sapp_lt _ _ _ _ N). specialize (K1 k). rewrite (sapp_lt _ _ _ _ N) in K1. exact K1.
      * replace k with (List.length c1 + (k - List.length c1)) by lia. rewrite sapp_ge. apply KL.
    + exists (concat added :: pieces), (List.length filled + List.length c1 + n0). split.
      * constructor; [|exact PS]. exists (flat_todo doc), added, filled. auto.
      * intros n L. cbn [concat]. rewrite app_assoc. rewrite <- (fill_shapes doc added filled c1 d1 F AN A P) by lia.
        replace (S n) with (List.length c1 + (S (n - List.length c1))) by lia.
        rewrite (shapes_sapp c1 d1), <- app_assoc.
        rewrite <- SH by lia. rewrite <- shapes_sapp.
        unfold shapes_upto, cols_upto. f_equal. rewrite !flat_map_concat_map. f_equal. apply map_ext. intros k. rewrite sapp_app. reflexivity.
Qed.
Lemma cols_empty_beyond doc n : fresh_rest doc -> shapes_upto doc (S n) = shapes_upto doc 1.
Proof.
  intros F. assert (O := fr_open _ F). unfold shapes_upto. rewrite !(cols_old doc _ O (fr_done _ F)), !flat_map_app. f_equal.
  assert (G : forall m, 0 < m -> flat_map col_shapes (map (flat_todo doc) (seq 0 m)) = col_shapes (flat_todo doc 0)).
  { intros m L. rewrite (seq_S0 m L). cbn [map flat_map]. rewrite no_shapes; [apply app_nil_r|].
    intros i I. apply in_seq in I. destruct i; [lia|]. apply (fr_todo _ F). }
  rewrite !G; [reflexivity| |]; match goal with |- 0 < off doc ?x => pose proof (off_ge doc x O); lia end.
Qed.
Lemma fresh_new template pnum : (forall i, pg_columns (template i) <> []) ->
  fresh_rest (fun i => pf_new (template (pnum + Z.of_nat i)%Z))
  /\ forall n, shapes_upto (fun i => pf_new (template (pnum + Z.of_nat i)%Z)) n = [].
Proof.
  intros T. set (doc := fun i => _). assert (O : open_pages doc).
  { intros k. unfold doc. cbn. specialize (T (pnum + Z.of_nat k)%Z). destruct (pg_columns _); [congruence|discriminate]. }
  assert (N : forall c k, In c (pf_todo (doc k)) -> cf_blocks c = []).
  { intros c k I. unfold doc in I. cbn in I. apply in_map_iff in I as (x & <- & _). reflexivity. }
  split; [split; [exact O|reflexivity|]|].
  - intros i. unfold flat_todo. set (l := concat _). destruct (Nat.ltb_spec (S i) (List.length l)) as [L|L].
    + assert (I := nth_In l no_col L). apply in_concat in I as (x & I & J). apply in_map_iff in I as (k & <- & _). eapply N, J.
    + rewrite nth_overflow by exact L. reflexivity.
  - intros n. unfold shapes_upto, cols_upto. induction (seq 0 n) as [|k l IH]; [reflexivity|].
    cbn [flat_map]. rewrite flat_map_app, IH, app_nil_r. change (pf_done (doc k)) with (@nil colfill). cbn [app].

    { assert (Q : Forall (fun c => cf_blocks c = []) (pf_todo (doc k))) by (apply Forall_forall; intros c I; eapply N, I).
      induction Q as [|c r H Q IHQ]; [reflexivity|]. cbn [flat_map]. rewrite IHQ. unfold col_shapes. rewrite H. reflexivity. }
Qed.

Lemma flat_new template pnum (Q : colfill -> Prop) : (forall i, pg_columns (template i) <> []) ->
  (forall i c, In c (pg_columns (template i)) -> Q (cf_new c)) ->
  (forall i, Q (flat_todo (fun i => pf_new (template (pnum + Z.of_nat i)%Z)) i))
  /\ forall k, page_all Q (pf_new (template (pnum + Z.of_nat k)%Z)).
Proof.
  intros T H. set (doc := fun i => _). assert (O : open_pages doc).
  { intros k. unfold doc. cbn. specialize (T (pnum + Z.of_nat k)%Z). destruct (pg_columns _); [congruence|discriminate]. }
  assert (N : forall c k, In c (pf_todo (doc k)) -> Q c).
  { intros c k I. unfold doc in I. cbn in I. apply in_map_iff in I as (x & <- & I). eapply H, I. }
  split.
  - intros i. unfold flat_todo. set (l := concat _).
    assert (L : i < List.length l).
    { pose proof (concat_len_ge (fun k => pf_todo (doc k)) (S i) O). unfold l. lia. }
    assert (I := nth_In l no_col L). apply in_concat in I as (x & I & J). apply in_map_iff in I as (k & <- & _). eapply N, J.
  - intros k. unfold page_all. apply Forall_forall. intros c I. apply (N c k). exact I.
Qed.
Lemma auto_pages_spec J K fuel base blocks template pnum pages : pointwise J ->
  Forall (adding J K fuel base) blocks -> (forall i, pg_columns (template i) <> []) ->
  J (flat_todo (fun i => pf_new (template (pnum + Z.of_nat i)%Z))) ->
  (forall i c, In c (pg_columns (template i)) -> K (cf_new c)) ->
  auto_pages fuel blocks template base pnum = Ok pages ->
  pages <> []
  /\ (forall k p, nth_error pages k = Some p ->
       fst p = template (pnum + Z.of_nat k)%Z /\ map cf_box (snd p) = pg_columns (fst p) /\ Forall K (snd p))
  /\ exists pieces, Forall2 (gives_shapes J fuel base) blocks pieces /\ flat_map page_shapes pages = concat pieces.
Proof.
  intros PJ AD T JT KT E. unfold auto_pages in E. apply bind_ok in E as ([comp doc'] & E & E'). apply Ok_inj in E'. cbn [fst snd] in E'.
  set (doc := fun i => pf_new (template (pnum + Z.of_nat i)%Z)) in *.
  destruct (fresh_new template pnum T) as (F & Z). fold doc in F, Z.
  destruct (flat_new template pnum K T KT) as (_ & KD). fold doc in KD.
  destruct (auto_loop_spec J K fuel base blocks PJ doc comp doc' AD E F JT KD) as (F' & DN & PL & KL & pieces & n0 & PS & SH).
  assert (PG : pages = map (fun k => (pf_base (sapp comp doc' k), pf_done (sapp comp doc' k) ++ pf_todo (sapp comp doc' k)))
                          (seq 0 (List.length comp + 1))).
  { rewrite <- E'. rewrite (map_sapp (fun p => (pf_base p, pf_done p ++ pf_todo p)) comp doc' 1). cbn [seq map]. f_equal.
    apply map_ext_in. intros p I. rewrite Forall_forall in DN. rewrite (DN p I), app_nil_r. reflexivity. }
  clear E'. split; [|split].
  - rewrite PG, seq_app, map_app. intros X. apply app_eq_nil in X as [_ X]. discriminate X.
  - intros k p N. rewrite PG, nth_error_map in N. destruct (nth_error (seq 0 (List.length comp + 1)) k) as [j|] eqn:NJ; [|discriminate].
    assert (j = k). { assert (k < List.length (seq 0 (List.length comp + 1))) by (apply nth_error_Some; congruence).
      rewrite seq_length in H. apply nth_error_nth with (d := 0) in NJ. rewrite seq_nth in NJ by exact H. lia. }
    subst j. injection N as <-. cbn [fst snd]. destruct (PL k) as (B & C). split; [exact B|]. split; [|apply KL].
    rewrite B, C. unfold doc, pf_new. cbn [pf_base pf_done pf_todo app]. rewrite map_map. apply map_id.
  - exists pieces. split; [exact PS|].
    transitivity (shapes_upto (sapp comp doc') (List.length comp + 1)).
    { rewrite PG. unfold shapes_upto, cols_upto, page_shapes. rewrite !flat_map_concat_map, map_map. cbn [snd].
      rewrite <- flat_map_concat_map. clear PG. induction (seq 0 (List.length comp + 1)) as [|k l IH]; [reflexivity|].
      cbn [map flat_map concat]. rewrite map_app, concat_app. f_equal; [apply flat_map_concat_map|exact IH]. }
    transitivity (shapes_upto (sapp comp doc') (List.length comp + S (S n0 + List.length comp))).
    { rewrite !shapes_sapp. f_equal. symmetry. apply cols_empty_beyond, F'. }
    replace (List.length comp + S (S n0 + List.length comp)) with (S (List.length comp + S n0 + List.length comp)) by lia.
    rewrite SH by lia. rewrite Z. reflexivity.
Qed.

(** ** Paragraphs *)
Lemma para_only_adds fuel base p cs out : para_columns fuel p base cs = Ok out -> only_adds cs out.
Proof.
  intros E. unfold para_columns in E.
  apply para_loop_run in E as (added & cks & NE & A & _ & _). split; [|eauto].
  intros ->. apply adds_length in A. destruct added; [congruence|discriminate].
Qed.
Lemma para_adding fuel base p : adding (fun _ => True) (fun _ => True) fuel base (BPara p).
Proof.
  intros cs out _ E. split; [eapply para_only_adds, E|]. split; [|exact I]. apply Forall_forall. trivial.
Qed.
(** the lines of a paragraph (none if it has no strings) *)
Definition para_lines (base : full) (p : para) : list (list schar) :=
  match span_strings base (ISpan (p_style p) (p_content p)) with
  | [] => []
  | l => lines_of l
  end.
Definition para_begins (base : full) (p : para) : Prop :=
  Forall (fun x => begins_text (fst x)) (span_strings base (ISpan (p_style p) (p_content p))).
Definition para_lead (base : full) (p : para) : num :=
  let sty := full_or base (p_style p) in max_lead (flatten sty (p_style p) (p_content p)) (as_state sty).
Definition para_shape_lines (s : list shaped) : list (list schar) :=
  map (fun l => measured_all (tl_words l)) (flat_map shape_lines s).
Lemma full_or_twice base sty : full_or (full_or base sty) sty = full_or base sty.
Proof. destruct sty as [[] [] [] [] [] [] []]; reflexivity. Qed.
Lemma para_strings base p : span_strings (full_or base (p_style p)) (ISpan (p_style p) (p_content p))
  = span_strings base (ISpan (p_style p) (p_content p)).
Proof. cbn [span_strings]. rewrite full_or_twice. reflexivity. Qed.
Lemma para_groups base p : exact_eq NUM -> para_begins base p ->
  let sty := full_or base (p_style p) in
  let gs := splitlines (flatten sty (p_style p) (p_content p)) in
  Forall text_group gs /\ styled_groups gs (as_state sty) = para_lines base p.
Proof.
  intros EX B sty gs. pose proof (C20_nested_spans NUM EX sty (p_style p) (p_content p)) as R.
  unfold sty in R at 3. rewrite para_strings in R.
  set (ps := flatten sty (p_style p) (p_content p)) in *. unfold para_begins in B.
  pose proof (run_passages_begin _ _ _ R B) as F. split; [apply splitlines_text_groups, F|].
  unfold para_lines. destruct (span_strings base (ISpan (p_style p) (p_content p))) as [|x l] eqn:E.
  - destruct ps as [|[? ?] ?] eqn:EP; [|discriminate R]. reflexivity.
  - assert (PN : ps <> []) by (destruct ps; discriminate).
    unfold gs. fold ps. rewrite (splitlines_spec ps (as_state sty) PN). apply spec_lines_of, R.
Qed.
Lemma shape_lines_chunks lead a cks : flat_map shape_lines (map (chunk lead a) (concat cks)) = concat (map (@concat tline) cks).
Proof.
  induction cks as [|c cks IH]; [reflexivity|]. cbn [concat map]. rewrite map_app, flat_map_app, IH. f_equal.
  induction c as [|ls c IHc]; [reflexivity|]. cbn [map flat_map concat shape_lines chunk]. f_equal. exact IHc.
Qed.
Lemma concat_map_map {A B} (f : A -> B) (l : list (list A)) : concat (map (map f) l) = map f (concat l).
Proof. symmetry. apply concat_map. Qed.
Lemma styled_groups_text gs : forall s : state, map (map fst) (styled_groups gs s) = map text_of gs.
Proof. induction gs as [|g gs IH]; intros s; [reflexivity|]. cbn [styled_groups map]. rewrite styled_text, IH. reflexivity. Qed.
(** first-fit: text and styles *)
Lemma para_ff fuel base p cs out : exact_eq NUM -> all_split -> para_begins base p -> p_optimal p = None ->
  para_columns fuel p base cs = Ok out ->
  exists added rows, added <> [] /\ adds cs added out
    /\ Forall2 conserves rows (para_lines base p) /\ concat rows = para_shape_lines (concat added)
    /\ Forall (fun s => exists ls, s = chunk (para_lead base p) (p_align p) ls
         /\ Forall (fun l => tl_cmd l = NoOp) ls /\ exists st, coh_all (text_words ls) st) (concat added).
Proof.
  intros EX HY B N E. unfold para_columns in E. destruct (para_groups base p EX B) as (T & S).
  set (sty := full_or base (p_style p)) in *. set (gs := splitlines _) in *.
  apply para_loop_run in E as (added & cks & NE & A & R & CO).
  assert (R2 := R). apply run_styles in R as (R1 & C1); auto. rewrite S in R1.
  exists added, (map (fun chunks => map (fun l => measured_all (tl_words l)) (concat chunks)) cks).
  split; [exact NE|]. split; [exact A|]. split; [|split].
  - clear -R1. induction R1; constructor; auto.
  - unfold para_shape_lines. rewrite CO, shape_lines_chunks, <- concat_map_map, map_map. reflexivity.
  - rewrite CO. clear -C1 R2. change (max_lead (flatten sty (p_style p) (p_content p)) (as_state sty)) with (para_lead base p) in *.
    induction R2.
    + constructor.
    + inversion C1 as [|? ? C2 C3]; subst. cbn [concat]. rewrite map_app. apply Forall_app. split.
      * match goal with H : shape _ _ _ _ _ _ = Ok _ |- _ => apply shape_cmd in H; rename H into NC end.
        clear -C2 NC. induction chunks as [|ls chunks IH]; [constructor|].
        cbn [concat] in NC. apply Forall_app in NC as [NC1 NC2]. inversion C2; subst. constructor; [|auto]. eexists. eauto.
      * destruct ex; auto. match goal with H : false = false -> _ |- _ => rewrite H by reflexivity end. constructor.
Qed.
End Pages.
