(** * LayoutProofs: filling columns and pages. *)
From Verif Require Import Base Num Fonts State Style TextSpec Words WordsSpec Parse Render Common Draw Layout LayoutSpec.
Open Scope nat_scope.

Section Fill.
Context {NUM : Num} {ENV : Env NUM}.

Lemma concat_len_ge {A} (f : nat -> list A) n : (forall k, f k <> []) -> n <= List.length (concat (map f (seq 0 n))).
Proof.
  intros H. induction n as [|n IH]; [lia|]. rewrite seq_S, map_app, concat_app, app_length. cbn.
  rewrite app_nil_r. specialize (H n). destruct (f n); [congruence|]. cbn. lia.
Qed.
Lemma nth_concat_more {A} (f : nat -> list A) i n d : (forall k, f k <> []) -> S i <= n ->
  nth i (concat (map f (seq 0 n))) d = nth i (concat (map f (seq 0 (S i)))) d.
Proof.
  intros H L. replace n with (S i + (n - S i)) by lia. rewrite seq_app, map_app, concat_app.
  rewrite app_nth1; [reflexivity|]. pose proof (concat_len_ge f (S i) H). lia.
Qed.
Lemma flat_todo_step doc i : open_pages doc ->
  flat_todo doc i = (if i <? List.length (pf_todo (doc 0)) then nth i (pf_todo (doc 0)) no_col
                     else flat_todo (sdrop 1 doc) (i - List.length (pf_todo (doc 0)))).
Proof.
  intros O. unfold flat_todo at 1. cbn [seq map concat]. destruct (Nat.ltb_spec i (List.length (pf_todo (doc 0)))) as [L|L].
  - apply app_nth1. exact L.
  - rewrite app_nth2 by lia. rewrite <- seq_shift, map_map.
    change (map (fun x => pf_todo (doc (S x))) (seq 0 i)) with (map (fun k => pf_todo (sdrop 1 doc k)) (seq 0 i)).
    assert (O1 : forall k, pf_todo (sdrop 1 doc k) <> []) by (intros k; apply O).
    assert (L1 : 1 <= List.length (pf_todo (doc 0))) by (specialize (O 0); destruct (pf_todo (doc 0)); [congruence|cbn; lia]).
    unfold flat_todo. apply nth_concat_more; [exact O1|lia].
Qed.
Lemma off_S doc k : off doc (S k) = List.length (pf_todo (doc 0)) + off (sdrop 1 doc) k.
Proof. unfold off. cbn [seq map list_sum fold_right]. rewrite <- seq_shift, map_map. reflexivity. Qed.
Lemma flat_off doc : open_pages doc -> forall k i, i < List.length (pf_todo (doc k)) ->
  flat_todo doc (off doc k + i) = nth i (pf_todo (doc k)) no_col.
Proof.
  intros O k. revert doc O. induction k as [|k IH]; intros doc O i L.
  - change (off doc 0 + i) with i. rewrite flat_todo_step by exact O. apply Nat.ltb_lt in L. rewrite L. reflexivity.
  - rewrite flat_todo_step by exact O. rewrite off_S.
    replace (_ + _ + i <? _) with false by (symmetry; apply Nat.ltb_ge; lia).
    replace (List.length (pf_todo (doc 0)) + off (sdrop 1 doc) k + i - List.length (pf_todo (doc 0))) with (off (sdrop 1 doc) k + i) by lia.
    rewrite IH; [reflexivity| |exact L]. intros j. apply O.
Qed.
Lemma map_nth_seq {A} (l : list A) d : map (fun i => nth i l d) (seq 0 (List.length l)) = l.
Proof.
  induction l as [|x l IH]; [reflexivity|]. cbn [List.length seq map nth]. f_equal.
  rewrite <- seq_shift, map_map. exact IH.
Qed.
Lemma map_nth_over {A} (f l : list A) d : List.length f <= List.length l ->
  map (fun i => nth i f (nth i l d)) (seq 0 (List.length l)) = f ++ skipn (List.length f) l.
Proof.
  revert l; induction f as [|x f IH]; intros l L.
  - rewrite (map_ext _ (fun i => nth i l d)); [apply map_nth_seq|]. intros [|i]; reflexivity.
  - destruct l as [|y l]; [cbn in L; lia|]. cbn [List.length seq map nth app skipn]. f_equal.
    rewrite <- seq_shift, map_map. apply IH. cbn in L. lia.
Qed.
Lemma seq_off_shift a n : seq a n = map (fun i => a + i) (seq 0 n).
Proof.
  revert a; induction n as [|n IH]; intros a; [reflexivity|]. cbn [seq map]. rewrite Nat.add_0_r. f_equal.
  rewrite IH, <- seq_shift, map_map. apply map_ext. intros i. lia.
Qed.
Lemma todo_as_flat doc k : open_pages doc ->
  map (flat_todo doc) (seq (off doc k) (List.length (pf_todo (doc k)))) = pf_todo (doc k).
Proof.
  intros O. rewrite seq_off_shift, map_map. transitivity (map (fun i => nth i (pf_todo (doc k)) no_col) (seq 0 (List.length (pf_todo (doc k))))).
  - apply map_ext_in. intros i I. apply in_seq in I. apply flat_off; [exact O|lia].
  - apply map_nth_seq.
Qed.

Definition page_ok (filled : list colfill) (doc : nat -> pagefill) (k : nat) (p : pagefill) : Prop :=
  pf_base p = pf_base (doc k)
  /\ pf_done p ++ pf_todo p = pf_done (doc k) ++ map (newcol filled doc) (seq (off doc k) (List.length (pf_todo (doc k)))).
Lemma fill_loop_spec fuel : forall filled doc, List.length filled < fuel -> filled <> [] -> open_pages doc ->
  exists completed doc', fill_loop fuel filled doc = Ok (completed, doc')
    /\ (forall k, page_ok filled doc k (sapp completed doc' k))
    /\ Forall (fun p => pf_todo p = []) completed
    /\ (forall j, flat_todo doc' j = newcol filled doc (List.length filled - 1 + j))
    /\ open_pages doc'.
Proof.
  induction fuel as [|fuel IH]; intros filled doc L NE O; [lia|]. cbn [fill_loop].
  set (t0 := pf_todo (doc 0)). assert (L0 : 1 <= List.length t0).
  { pose proof (O 0) as H. fold t0 in H. destruct t0; [congruence|cbn; lia]. }
  assert (F0 : forall i, i < List.length t0 -> flat_todo doc i = nth i t0 no_col).
  { intros i H. rewrite flat_todo_step by exact O. fold t0. apply Nat.ltb_lt in H. rewrite H. reflexivity. }
  destruct (skipn (List.length t0) filled) as [|c0 rest] eqn:ER.
  - assert (LE : List.length filled <= List.length t0).
    { apply (f_equal (@List.length _)) in ER. rewrite skipn_length in ER. cbn in ER. lia. }
    rewrite firstn_all2 by exact LE.
    destruct (exists_last NE) as (init & lst & ->). unfold pf_reopen. cbn [pf_done pf_base pf_todo].
    rewrite app_assoc, rev_app_distr. cbn [rev app bind]. eexists [], _. split; [reflexivity|].
    rewrite app_length in *. cbn [List.length] in *.
    rewrite rev_involutive. set (r := mkPF _ _ _).
    assert (PK : forall k, page_ok (init ++ [lst]) doc k (scons r (sdrop 1 doc) k)).
    { intros [|k]; unfold page_ok; cbn [scons].
      - split; [reflexivity|]. unfold r. cbn [pf_done pf_todo]. fold t0.
        change (off doc 0) with 0. rewrite <- app_assoc. f_equal.
        transitivity (map (fun i => nth i (init ++ [lst]) (nth i t0 no_col)) (seq 0 (List.length t0))).
        + rewrite map_nth_over by (rewrite app_length; cbn; lia). rewrite app_length, <- app_assoc. reflexivity.
        + apply map_ext_in. intros i I. apply in_seq in I. unfold newcol. rewrite F0 by lia. reflexivity.
      - change (sdrop 1 doc k) with (doc (S k)). split; [reflexivity|]. f_equal.
        rewrite <- (todo_as_flat doc (S k) O) at 1. apply map_ext_in. intros i I. apply in_seq in I.
        unfold newcol. rewrite nth_overflow; [reflexivity|]. rewrite app_length. cbn.
        rewrite off_S in I. fold t0 in I. lia. }
    assert (O' : open_pages (scons r (sdrop 1 doc))).
    { intros [|k]; [discriminate|apply O]. }
    split; [|split; [constructor|split; [|exact O']]].
    + intros k. unfold sapp. replace (nth_error [] k) with (@None pagefill) by (destruct k; reflexivity).
      cbn [List.length]. rewrite Nat.sub_0_r. apply PK.
    + intros j. rewrite flat_todo_step by exact O'. cbn [scons]. unfold r at 1 2 3. cbn [pf_todo].
      cbn [List.length]. fold t0. rewrite skipn_length. unfold newcol.
      replace (List.length init + 1 - 1 + j) with (List.length init + j) by lia.
      destruct j as [|j].
      * cbn [Nat.ltb Nat.leb nth]. rewrite Nat.add_0_r, app_nth2, Nat.sub_diag by lia. reflexivity.
      * rewrite (nth_overflow (init ++ [lst])) by (rewrite app_length; cbn; lia).
        destruct (Nat.ltb_spec (S j) (S (List.length t0 - (List.length init + 1)))) as [J|J].
        -- cbn [nth]. rewrite F0 by lia.
           rewrite <- (firstn_skipn (List.length init + 1) t0) at 2.
           rewrite app_nth2; rewrite firstn_length_le by lia; [|lia]. f_equal. lia.
        -- rewrite (flat_todo_step doc) by exact O. fold t0.
           replace (List.length init + S j <? List.length t0) with false by (symmetry; apply Nat.ltb_ge; lia).
           change (sdrop 1 (scons r (sdrop 1 doc))) with (sdrop 1 doc).
           f_equal. unfold r. cbn [pf_todo List.length]. rewrite skipn_length. fold t0. lia.
  - assert (LE : List.length t0 < List.length filled).
    { apply (f_equal (@List.length _)) in ER. rewrite skipn_length in ER. cbn in ER. lia. }
    assert (LR : List.length (c0 :: rest) = List.length filled - List.length t0) by (rewrite <- ER; apply skipn_length).
    assert (O1 : open_pages (sdrop 1 doc)) by (intros k; apply O).
    destruct (IH (c0 :: rest) (sdrop 1 doc)) as (completed & doc' & E & PK & TD & FL & O'); [lia|discriminate|exact O1|].
    rewrite E. cbn [bind fst snd]. eexists _, _. split; [reflexivity|].
    rewrite firstn_length_le by lia. fold t0. rewrite skipn_all.
    assert (NC : forall i, newcol (c0 :: rest) (sdrop 1 doc) i = newcol filled doc (List.length t0 + i)).
    { intros i. unfold newcol. rewrite (flat_todo_step doc) by exact O. fold t0.
      replace (List.length t0 + i <? List.length t0) with false by (symmetry; apply Nat.ltb_ge; lia).
      replace (List.length t0 + i - List.length t0) with i by lia.
      rewrite <- (firstn_skipn (List.length t0) filled), app_nth2; rewrite firstn_length_le by lia; [|lia].
      rewrite ER. f_equal. lia. }
    split; [|split; [constructor; [reflexivity|exact TD]|split; [|exact O']]].
    + intros [|k].
      * split; [reflexivity|]. cbn [sapp nth_error pf_done pf_todo]. change (off doc 0) with 0. fold t0.
        unfold sapp. cbn [nth_error pf_done pf_todo]. rewrite app_nil_r. f_equal.
        transitivity (map (fun i => nth i filled no_col) (seq 0 (List.length t0))).
        -- assert (LF : List.length (firstn (List.length t0) filled) = List.length t0) by (apply firstn_length_le; lia).
           rewrite <- (map_nth_seq (firstn (List.length t0) filled) no_col) at 1. rewrite LF.
           apply map_ext_in. intros i I. apply in_seq in I.
           rewrite <- (firstn_skipn (List.length t0) filled) at 2. rewrite app_nth1 by lia. reflexivity.
        -- apply map_ext_in. intros i I. apply in_seq in I. unfold newcol. apply nth_indep. lia.
      * change (sapp (_ :: completed) doc' (S k)) with (sapp completed doc' k). destruct (PK k) as (P1 & P2).
        split; [exact P1|]. rewrite P2. change (sdrop 1 doc k) with (doc (S k)). f_equal.
        rewrite off_S. fold t0. rewrite (seq_off_shift (off _ _)), (seq_off_shift (_ + _)), !map_map.
        apply map_ext. intros i. rewrite NC. f_equal. lia.
    + intros j. rewrite FL, NC. f_equal. rewrite LR. lia.
Qed.

(** ** Adding to columns *)
Lemma adds_nil cs : adds cs [] [].
Proof. reflexivity. Qed.
Lemma adds_length cs added out : adds cs added out -> List.length out = List.length added.
Proof. intros ->. rewrite map_length, seq_length. reflexivity. Qed.
Lemma adds_cons cs x added out : adds cs (x :: added) out <->
  exists o r, out = o :: r /\ o = fold_left cf_add x (cs 0) /\ adds (sdrop 1 cs) added r.
Proof.
  unfold adds. cbn [List.length seq map nth]. rewrite <- seq_shift, map_map. split.
  - intros ->. eauto.
  - intros (o & r & -> & -> & ->). reflexivity.
Qed.
(** continuing at the last column *)
Lemma adds_continue added : forall cs added' out out' col, added <> [] ->
  adds cs added (out ++ [col]) -> adds (scons col (sdrop (List.length added) cs)) added' out' -> added' <> [] ->
  adds cs (glue added added') (out ++ out').
Proof.
  induction added as [|x added IH]; intros cs added' out out' col NE A A' NE'; [congruence|].
  apply adds_cons in A as (o & r & E & -> & A).
  destruct added as [|y added].
  - apply adds_length in A as LR. destruct r; [|discriminate].
    destruct out as [|o out]; [|destruct out; discriminate]. injection E as ->.
    destruct added' as [|x' added']; [congruence|]. apply adds_cons in A' as (o' & r' & -> & -> & A').
    cbn [glue app]. apply adds_cons. eexists _, _. split; [reflexivity|]. cbn [scons].
    rewrite fold_left_app. split; [reflexivity|]. exact A'.
  - destruct out as [|o out].
    { apply adds_length in A. injection E as -> <-. discriminate A. }
    injection E as -> <-. cbn [app]. change (glue (x :: y :: added) added') with (x :: glue (y :: added) added').
    apply adds_cons. eexists _, _. split; [reflexivity|]. split; [reflexivity|].
    eapply IH; eauto. discriminate.
Qed.
Lemma add_chunks_adds chunks : forall cs, adds cs (map (fun s => [s]) chunks) (add_chunks cs chunks).
Proof.
  induction chunks as [|s r IH]; intros cs; [apply adds_nil|]. cbn [map add_chunks]. apply adds_cons.
  eexists _, _. split; [reflexivity|]. split; [reflexivity|apply IH].
Qed.
Lemma fold_add c ss : cf_box (fold_left cf_add ss c) = cf_box c
  /\ col_shapes (fold_left cf_add ss c) = col_shapes c ++ ss
  /\ exists l, cf_blocks (fold_left cf_add ss c) = cf_blocks c ++ l.
Proof.
  revert c; induction ss as [|s ss IH]; intros c; cbn [fold_left].
  - rewrite app_nil_r. repeat split. exists []. rewrite app_nil_r. reflexivity.
  - destruct (IH (cf_add c s)) as (A & B & l & C). split; [exact A|]. split.
    + rewrite B. unfold col_shapes, cf_add. cbn [cf_blocks]. rewrite map_app, <- app_assoc. reflexivity.
    + exists ([(cf_cursor c, s)] ++ l). rewrite C. cbn [cf_add cf_blocks]. symmetry. apply app_assoc.
Qed.
Lemma glue_ne_l {A} (a b : list (list A)) : a <> [] -> glue a b <> [].
Proof. destruct a as [|x [|y a]]; [congruence|destruct b; discriminate|discriminate]. Qed.
(** the shapes of the chunks of one group of passages *)
Lemma fill_paragraph_adds fuel p txt cs st lead done st' ex :
  fill_paragraph fuel p txt cs st lead = Ok (done, st', ex) ->
  exists cmd ws ws' chunks, into_words txt st = Ok (cmd, ws, ex) /\ indent_first ws (p_indent p) = Ok ws'
   /\ shape fuel p ws' (fun i => (c_width (cf_box (cs i)), cf_free (cs i)))
        (match cf_blocks (cs 0) with [] => false | _ => true end) lead = Ok chunks
   /\ st' = states_after chunks (apply cmd st)
   /\ done = add_chunks cs (map (chunk lead (p_align p)) chunks)
   /\ adds cs (map (fun ls => [chunk lead (p_align p) ls]) chunks) done.
Proof.
  unfold fill_paragraph. intros E. apply bind_ok in E as ([[cmd ws] ex'] & E1 & E). apply bind_ok in E as (ws' & E2 & E).
  apply bind_ok in E as (chunks & E3 & E). apply Ok_inj in E. injection E as <- <- <-.
  exists cmd, ws, ws', chunks. repeat split; auto.
  rewrite <- (map_map (chunk lead (p_align p)) (fun s => [s])). apply add_chunks_adds.
Qed.
Lemma adds_one cs : adds cs [[]] [cs 0].
Proof. reflexivity. Qed.
Lemma concat_glue' {A} (a b : list (list A)) : concat (glue a b) = concat a ++ concat b.
Proof.
  revert b; induction a as [|x a IH]; intros b; [reflexivity|]. destruct a as [|y a].
  - destruct b; cbn; rewrite ?app_nil_r, ?app_assoc; reflexivity.
  - change (glue (x :: y :: a) b) with (x :: glue (y :: a) b). cbn [concat]. rewrite IH, app_assoc. reflexivity.
Qed.
(** a run over groups: the chunks of each *)
Inductive para_run (fuel : nat) (p : para) (lead : num) :
  list (list passage) -> (nat -> colfill) -> state -> list (list (list tline)) -> Prop :=
| run_nil cs st : para_run fuel p lead [] cs st []
| run_group g r cs st cmd ws ws' ex chunks rest :
    into_words g st = Ok (cmd, ws, ex) -> indent_first ws (p_indent p) = Ok ws' ->
    shape fuel p ws' (fun i => (c_width (cf_box (cs i)), cf_free (cs i)))
        (match cf_blocks (cs 0) with [] => false | _ => true end) lead = Ok chunks ->
    chunks <> [] ->
    (ex = false -> rest = []) ->
    (ex = true -> para_run fuel p lead r
        (scons (cf_add (cs (List.length chunks - 1)) (chunk lead (p_align p) (List.last chunks [])))
               (sdrop (List.length chunks) cs)) (states_after chunks (apply cmd st)) rest) ->
    para_run fuel p lead (g :: r) cs st (chunks :: rest).
Lemma last_add_chunks cs chunks c : chunks <> [] ->
  List.last (add_chunks cs chunks) c = cf_add (cs (List.length chunks - 1)) (List.last chunks (SText [] n0 ALeft n0)).
Proof.
  revert cs; induction chunks as [|s chunks IH]; intros cs NE; [congruence|].
  destruct chunks as [|s2 chunks]; [reflexivity|].
  specialize (IH (sdrop 1 cs) ltac:(discriminate)). cbn [add_chunks] in *.
  change (List.last (cf_add (cs 0) s :: cf_add (sdrop 1 cs 0) s2 :: add_chunks (sdrop 1 (sdrop 1 cs)) chunks) c)
    with (List.last (cf_add (sdrop 1 cs 0) s2 :: add_chunks (sdrop 1 (sdrop 1 cs)) chunks) c).
  rewrite IH. cbn [List.length]. change (List.last (s :: s2 :: chunks) ?d) with (List.last (s2 :: chunks) d).
  f_equal. unfold sdrop. f_equal. lia.
Qed.
Lemma add_chunks_length cs chunks : List.length (add_chunks cs chunks) = List.length chunks.
Proof. revert cs; induction chunks; intros cs; cbn; auto. Qed.
Lemma last_map {A B} (f : A -> B) l d d' : l <> [] -> List.last (map f l) d = f (List.last l d').
Proof.
  induction l as [|x [|y l] IH]; intros H; [congruence|reflexivity|]. cbn [map] in *.
  change (List.last (f x :: f y :: map f l) d) with (List.last (f y :: map f l) d). apply IH. discriminate.
Qed.
Lemma para_loop_run fuel p lead gs : forall cs st out, para_loop fuel p gs cs st lead = Ok out ->
  exists added cks, added <> [] /\ adds cs added out /\ para_run fuel p lead gs cs st cks
    /\ concat added = map (chunk lead (p_align p)) (concat cks).
Proof.
  induction gs as [|g gs IH]; intros cs st out E; cbn [para_loop] in E.
  - apply Ok_inj in E. subst out. exists [[]], []. split; [discriminate|]. split; [apply adds_one|]. split; [constructor|reflexivity].
  - apply bind_ok in E as ([[done st'] ex] & E1 & E).
    apply fill_paragraph_adds in E1 as (cmd & ws & ws' & chunks & W & I & S & -> & D & A).
    destruct (rev done) as [|col filled] eqn:R; [discriminate|].
    assert (DE : done = rev filled ++ [col]) by (rewrite <- (rev_involutive done), R; reflexivity).
    assert (LC : List.length done = List.length chunks) by (rewrite D, add_chunks_length, map_length; reflexivity).
    assert (CN : chunks <> []). { intros ->. subst done. destruct filled; discriminate R. }
    assert (CE : col = cf_add (cs (List.length chunks - 1)) (chunk lead (p_align p) (List.last chunks []))).
    { transitivity (List.last done col); [rewrite DE, last_last; reflexivity|]. rewrite D, last_add_chunks by (destruct chunks; [congruence|discriminate]).
      rewrite map_length. f_equal. apply last_map. exact CN. }
    assert (AN : map (fun ls => [chunk lead (p_align p) ls]) chunks <> []) by (destruct chunks; [congruence|discriminate]).
    assert (CC : concat (map (fun ls => [chunk lead (p_align p) ls]) chunks) = map (chunk lead (p_align p)) chunks).
    { clear. induction chunks; cbn; [reflexivity|]. f_equal. assumption. }
    destruct ex.
    + apply bind_ok in E as (out' & E2 & E). apply Ok_inj in E. subst out.
      apply IH in E2 as (added' & cks & NE & A' & RN & CO).
      exists (glue (map (fun ls => [chunk lead (p_align p) ls]) chunks) added'), (chunks :: cks).
      split; [apply glue_ne_l; exact AN|]. split; [|split].
      * eapply adds_continue; eauto.
        -- rewrite <- DE. exact A.
        -- rewrite map_length, <- LC. exact A'.
      * eapply run_group; eauto; [discriminate|]. intros _. rewrite <- CE, <- LC. exact RN.
      * rewrite concat_glue', CO, CC. cbn [concat]. rewrite map_app. reflexivity.
    + apply Ok_inj in E. subst out. rewrite <- DE. exists (map (fun ls => [chunk lead (p_align p) ls]) chunks), [chunks].
      split; [exact AN|]. split; [exact A|]. split.
      * eapply run_group; eauto; [discriminate].
      * cbn [concat]. rewrite app_nil_r. exact CC.
Qed.
End Fill.
