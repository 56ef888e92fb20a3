(** * C87: what is written of a page does not depend on what comes after it *)
From Coq Require Import String QArith Qcanon Lia.
From Verif Require Import Base Gfmt Atoms PdfSpec AtomsProofs FileProofs Num Fonts State Style Words Parse Render Firstfit KnuthPlass
  Optimum Common Draw Layout LayoutSpec LayoutProofs FontsUsed Document DocumentSpec DocumentProofs
  Properties_Words Properties_Text Properties_Layout Properties_Document.
Local Open Scope list_scope.
Open Scope nat_scope.

Section Prefix.
Context {NUM : Num} {ENV : Env NUM}.
Lemma auto_gen_app fuel base b1 : forall b2 pending doc,
  auto_gen fuel (b1 ++ b2) base pending doc =
  match snd (auto_gen fuel b1 base pending doc) with
  | Err e => auto_gen fuel b1 base pending doc
  | Ok (fs, doc') => (fst (auto_gen fuel b1 base pending doc) ++ fst (auto_gen fuel b2 base fs doc'), snd (auto_gen fuel b2 base fs doc'))
  end.
Proof.
  induction b1 as [|b b1 IH]; intros b2 pending doc; cbn [app auto_gen fst snd].
  - destruct (auto_gen fuel b2 base pending doc); reflexivity.
  - destruct (do cols <- block_columns fuel b base (flat_todo doc); fill_into cols doc) as [[[|p ps] doc']|e]; [| |reflexivity].
    + apply IH.
    + rewrite IH. destruct (snd (auto_gen fuel b1 base [] doc')) as [[fs d]|e] eqn:E; cbn [fst snd]; rewrite ?E; [|reflexivity].
      rewrite <- app_comm_cons, <- app_assoc. reflexivity.
Qed.
Lemma pages_gen_app fuel base i1 : forall i2 n,
  pages_gen fuel base (i1 ++ i2) n =
  match snd (pages_gen fuel base i1 n) with
  | Some e => pages_gen fuel base i1 n
  | None => let y := pages_gen fuel base i2 (n + Z.of_nat (List.length (fst (pages_gen fuel base i1 n))))%Z in
            (fst (pages_gen fuel base i1 n) ++ fst y, snd y)
  end.
Proof.
  induction i1 as [|i i1 IH]; intros i2 n; cbn [app pages_gen fst snd List.length].
  - rewrite Z.add_0_r. destruct (pages_gen fuel base i2 n); reflexivity.
  - destruct (item_gen fuel base i (n + 1)) as [l [e|]] eqn:E; cbn [fst snd]; [rewrite ?E; cbn [snd]; reflexivity|].
    rewrite IH. destruct (pages_gen fuel base i1 (n + Z.of_nat (List.length l))) as [l1 [e|]] eqn:E1; cbn [fst snd]; [reflexivity|].
    rewrite app_length, Nat2Z.inj_add, Z.add_assoc. cbv zeta. now rewrite app_assoc.
Qed.
Lemma page_objects_app base ys : forall more i r cs,
  exists x rest, page_objects base ys i r cs = x /\ fst (page_objects base (ys ++ more) i r cs) = fst x ++ rest
    /\ (forall e, snd x = Err e -> snd (page_objects base (ys ++ more) i r cs) = Err e /\ rest = []).
Proof.
  induction ys as [|[fs p] ys IH]; intros more i r cs; cbn [app page_objects].
  - eexists _, _. split; [reflexivity|]. split; [reflexivity|]. discriminate.
  - destruct (page_bytes _ base p cs) as [[[b r1] cs1]|e].
    + destruct (IH more (i + 2)%N r1 cs1) as (x & rest & X & Y & Z). rewrite X. exists ((i, page_dict p i) :: ((i + 1)%N, AStream b []) :: fst x, snd x), rest.
      split; [reflexivity|]. cbn [fst snd]. rewrite Y. split; [reflexivity|exact Z].
    + eexists _, []. split; [reflexivity|]. cbn [fst snd]. split; [reflexivity|]. intros e' E. split; [exact E|reflexivity].
Qed.
Lemma page_objects_len base ys : forall i r cs x, page_objects base ys i r cs = x -> (exists y, snd x = Ok y) ->
  List.length (fst x) = 2 * List.length ys.
Proof.
  induction ys as [|[fs p] ys IH]; intros i r cs x E [y Y]; cbn [page_objects] in E; [subst x; reflexivity|].
  destruct (page_bytes _ base p cs) as [[[b r1] cs1]|e]; [|subst x; discriminate Y].
  destruct (page_objects base ys (i + 2) r1 cs1) as [o s] eqn:F. cbn [fst snd] in E. subst x. cbn [fst snd] in *.
  cbn [List.length]. pose proof (IH _ _ _ _ F (ex_intro _ y Y)) as L. cbn [fst] in L. lia.
Qed.
Variable compress : bytes -> bytes.
Lemma chunks_gen_app o1 : forall o2 e c, mapM (write_obj compress) o1 = Ok c ->
  chunks_gen compress (o1 ++ o2) e = (c ++ fst (chunks_gen compress o2 e), snd (chunks_gen compress o2 e)).
Proof.
  induction o1 as [|o o1 IH]; intros o2 e c E; cbn [app chunks_gen mapM] in *.
  - apply Ok_inj in E. subst. destruct (chunks_gen compress o2 e); reflexivity.
  - destruct (write_obj compress o); [|discriminate]. cbn [bind] in E. destruct (mapM _ o1) as [c1|]; [|discriminate].
    cbn [bind] in E. apply Ok_inj in E. subst. rewrite (IH o2 e c1 eq_refl). reflexivity.
Qed.
Lemma chunks_gen_fin o1 : forall o2 e, snd (chunks_gen compress (o1 ++ o2) e) = Finished -> exists c, mapM (write_obj compress) o1 = Ok c.
Proof.
  induction o1 as [|o o1 IH]; intros o2 e E; cbn [app chunks_gen mapM] in *; [eauto|].
  destruct (write_obj compress o); [|discriminate]. cbn [fst snd] in E. destruct (IH _ _ E) as [c C]. rewrite C. cbn [bind]. eauto.
Qed.
Lemma write_gen_chunks fid o e : exists t, fst (write_gen compress fid o e) = header :: fst (chunks_gen compress o e) ++ t.
Proof.
  unfold write_gen. destruct (snd (chunks_gen compress o e)); try (exists []; rewrite app_nil_r; reflexivity).
  destruct (rev _) as [|a [|b [|c [|d l]]]]; try (exists []; rewrite app_nil_r; reflexivity).
  destruct (write_trailer _ _ _ _); [eexists; reflexivity|exists []; rewrite app_nil_r; reflexivity].
Qed.
Lemma doc_objects_pages fuel ttf_of items base : exists rest,
  fst (doc_objects fuel ttf_of items base) = fst (page_objects base (fst (pages_gen fuel base items 0)) 4 [] []) ++ rest.
Proof.
  unfold doc_objects. destruct (page_objects _ _ _ _ _) as [o [[r cs]|e]]; cbn [fst snd]; [|exists []; now rewrite app_nil_r].
  destruct (snd (pages_gen fuel base items 0)); [exists []; now rewrite app_nil_r|].
  destruct (List.length _); [exists []; now rewrite app_nil_r|].
  destruct (font_objects _ _ _) as [f [e|]]; cbn [fst snd]; eexists; reflexivity.
Qed.
Lemma same_prefix fuel ttf_of sty fid i1 i2 ys t1 t2 :
  let base := full_or full_default sty in
  fst (pages_gen fuel base i1 0) = ys ++ t1 -> fst (pages_gen fuel base i2 0) = ys ++ t2 ->
  snd (write_iter compress fuel ttf_of i1 sty fid) = Finished ->
  exists c r1 r2, List.length c = 1 + 2 * List.length ys
    /\ fst (write_iter compress fuel ttf_of i1 sty fid) = c ++ r1
    /\ fst (write_iter compress fuel ttf_of i2 sty fid) = c ++ r2.
Proof.
  intros base P1 P2 F. unfold write_iter in *. fold base in F |- *.
  destruct (doc_objects_pages fuel ttf_of i1 base) as [x1 X1]. destruct (doc_objects_pages fuel ttf_of i2 base) as [x2 X2].
  rewrite P1 in X1. rewrite P2 in X2.
  destruct (page_objects_app base ys t1 4%N [] []) as (x & m1 & E & Y1 & Z1).
  destruct (page_objects_app base ys t2 4%N [] []) as (x' & m2 & E' & Y2 & Z2). rewrite E in E'. subst x'.
  rewrite Y1, <- app_assoc in X1. rewrite Y2, <- app_assoc in X2.
  assert (FD : snd (doc_objects fuel ttf_of i1 base) = Finished /\ snd (chunks_gen compress (fst (doc_objects fuel ttf_of i1 base)) (snd (doc_objects fuel ttf_of i1 base))) = Finished).
  { unfold write_gen in F. destruct (snd (chunks_gen compress _ _)) eqn:C; try discriminate F. split; [|reflexivity].
    revert C. generalize (fst (doc_objects fuel ttf_of i1 base)) (snd (doc_objects fuel ttf_of i1 base)). clear.
    induction l as [|o l IH]; intros e C; cbn [chunks_gen] in C; [exact C|]. destruct (write_obj compress o); [|discriminate]. apply IH, C. }
  destruct FD as [FD FC].
  assert (OK : exists y, snd x = Ok y).
  { destruct (snd x) as [y|e] eqn:SX; [eauto|]. exfalso. destruct (Z1 e eq_refl) as [Z _].
    unfold doc_objects in FD. rewrite P1, Z in FD. discriminate FD. }
  rewrite X1 in FC. destruct (chunks_gen_fin _ _ _ FC) as [c C].
  pose proof (page_objects_len _ _ _ _ _ _ E OK) as L.
  destruct (write_gen_chunks fid (fst (doc_objects fuel ttf_of i1 base)) (snd (doc_objects fuel ttf_of i1 base))) as [w1 W1].
  destruct (write_gen_chunks fid (fst (doc_objects fuel ttf_of i2 base)) (snd (doc_objects fuel ttf_of i2 base))) as [w2 W2].
  rewrite W1, W2, X1, X2, !(chunks_gen_app _ _ _ _ C). cbn [fst].
  exists (header :: c). eexists _, _. split; [|split; cbn [app]; rewrite <- app_assoc; reflexivity].
  cbn [List.length]. rewrite <- L. f_equal. clear -C. revert c C. induction (fst x) as [|o l IH]; intros c C; cbn [mapM] in C.
  - apply Ok_inj in C. subst. reflexivity.
  - destruct (write_obj compress o); [|discriminate]. cbn [bind] in C. destruct (mapM _ l) as [c1|]; [|discriminate]. cbn [bind] in C.
    apply Ok_inj in C. subst. cbn. f_equal. now apply IH.
Qed.
End Prefix.

(** ** C87.  Layout: more blocks change no page but the last; on the last page, every column
    keeps what is in it, and more may follow in it. *)
Definition grows {NUM : Num} (cols cols' : list colfill) : Prop :=
  Forall2 (fun c c' => exists new, cf_blocks c' = cf_blocks c ++ new) cols cols'.
Section Grow.
Context {NUM : Num} {ENV : Env NUM}.
Lemma grows_refl l : grows l l.
Proof. induction l; constructor; [exists []; now rewrite app_nil_r|assumption]. Qed.
Lemma grows_trans a b : grows a b -> forall c, grows b c -> grows a c.
Proof.
  induction 1 as [|x y a b [n1 H] _ IH]; intros c G; inversion G as [|y' z b' c' [n2 H2] G2]; subst; constructor; [|apply IH; assumption].
  exists (n1 ++ n2). now rewrite H2, H, app_assoc.
Qed.
Definition fresh (doc : nat -> pagefill) : Prop := forall i, cf_blocks (flat_todo doc (S i)) = [].
Lemma block_grows fuel b base doc out : fresh doc -> block_columns fuel b base (flat_todo doc) = Ok out ->
  out <> [] /\ forall i c, nth_error out i = Some c -> exists new, cf_blocks c = cf_blocks (flat_todo doc i) ++ new.
Proof.
  intros F E. destruct b as [p|c m]; cbn [block_columns] in E.
  - destruct (C50_paragraph_adds _ _ _ _ _ _ _ E) as [NE H]. split; [exact NE|]. intros i c N.
    destruct (H i c N) as (_ & new & B & _). eauto.
  - apply Ok_inj in E. subst out. revert F. unfold fresh. generalize (flat_todo doc). intros cs F. unfold rule_columns. split; [destruct (nltb _ _); discriminate|]. intros i c' N.
    destruct (nltb _ _); cbn [app] in N.
    + destruct i as [|[|i]]; cbn in N; [| |destruct i; discriminate].
      * injection N as <-. exists []. now rewrite app_nil_r.
      * injection N as <-. rewrite F. eexists. reflexivity.
    + destruct i as [|i]; cbn in N; [|destruct i; discriminate]. injection N as <-. eexists. reflexivity.
Qed.
Lemma loop_grows fuel base blocks : forall doc comp doc', open_pages doc -> fresh doc ->
  auto_loop fuel blocks base doc = Ok (comp, doc') ->
  let p := sapp comp doc' 0 in
  pf_base p = pf_base (doc 0) /\ grows (pf_done (doc 0) ++ pf_todo (doc 0)) (pf_done p ++ pf_todo p)
  /\ Forall (fun q => pf_todo q = []) comp /\ open_pages doc' /\ fresh doc'.
Proof.
  induction blocks as [|b r IH]; intros doc comp doc' O F E; cbn [auto_loop] in E.
  - apply Ok_inj in E. injection E as <- <-. cbn. split; [reflexivity|]. split; [apply grows_refl|]. auto.
  - destruct (block_columns fuel b base (flat_todo doc)) as [cols|] eqn:BC; [|discriminate]. cbn [bind] in E.
    destruct (block_grows _ _ _ _ _ F BC) as [NE G].
    destruct (C49_fill_pages _ cols doc NE O) as (c1 & d1 & FI & PK & TD & FL & O1).
    rewrite FI in E. cbn [bind fst snd] in E.
    destruct (auto_loop fuel r base d1) as [[c2 d2]|] eqn:AL; [|discriminate]. cbn [bind fst snd] in E. apply Ok_inj in E. injection E as <- <-.
    assert (F1 : fresh d1).
    { intros i. rewrite FL. rewrite nth_overflow; [|lia]. replace (List.length cols - 1 + S i) with (S (List.length cols - 1 + i)) by lia. apply F. }
    assert (S1 : pf_base (sapp c1 d1 0) = pf_base (doc 0) /\ grows (pf_done (doc 0) ++ pf_todo (doc 0)) (pf_done (sapp c1 d1 0) ++ pf_todo (sapp c1 d1 0))).
    { destruct (PK 0) as [A B]. split; [exact A|]. rewrite B. apply Forall2_app; [apply grows_refl|].
      change (off doc 0) with 0. rewrite <- (todo_as_flat doc 0 O) at 1. change (off doc 0) with 0.
      clear -G. induction (seq 0 (List.length (pf_todo (doc 0)))) as [|i l IHl]; cbn [map]; constructor; [|exact IHl].
      destruct (nth_error cols i) as [c|] eqn:N.
      - rewrite (nth_error_nth _ _ _ N). apply (G i c N).
      - apply nth_error_None in N. rewrite nth_overflow by exact N. exists []. now rewrite app_nil_r. }
    destruct (IH d1 c2 d2 O1 F1 AL) as (A & B & T2 & O2 & F2).
    destruct c1 as [|p1 c1].
    + cbn [app]. cbn in S1, A, B |- *. destruct S1 as [A1 B1].
      split; [congruence|]. split; [eapply grows_trans; eassumption|auto].
    + cbn. cbn in S1. destruct S1 as [A1 B1]. split; [exact A1|]. split; [exact B1|]. split; [|auto].
      constructor; [now inversion TD|]. apply Forall_app; split; [now inversion TD|exact T2].
Qed.
Lemma loop_app fuel base b1 : forall b2 doc c1 d1, auto_loop fuel b1 base doc = Ok (c1, d1) ->
  auto_loop fuel (b1 ++ b2) base doc = do y <- auto_loop fuel b2 base d1; Ok (c1 ++ fst y, snd y).
Proof.
  induction b1 as [|b b1 IH]; intros b2 doc c1 d1 E; cbn [app auto_loop] in *.
  - apply Ok_inj in E. injection E as <- <-. destruct (auto_loop fuel b2 base doc) as [[]|]; reflexivity.
  - destruct (block_columns fuel b base (flat_todo doc)) as [cols|]; [|discriminate]. cbn [bind] in *.
    destruct (fill_into cols doc) as [[c d]|]; [|discriminate]. cbn [bind fst snd] in *.
    destruct (auto_loop fuel b1 base d) as [[c2 d2]|] eqn:E2; [|discriminate]. cbn [bind fst snd] in *. apply Ok_inj in E. injection E as <- <-.
    rewrite (IH b2 d c2 d2 E2). destruct (auto_loop fuel b2 base d2) as [[c3 d3]|]; [|reflexivity]. cbn [bind fst snd]. now rewrite app_assoc.
Qed.
End Grow.
Theorem C87_layout : forall (NUM : Num) (ENV : Env NUM) fuel template base n b1 b2 ps1 ps2,
  (forall k, pg_columns (template k) <> []) ->
  auto_pages fuel b1 template base n = Ok ps1 -> auto_pages fuel (b1 ++ b2) template base n = Ok ps2 ->
  exists same last grown more, ps1 = same ++ [last] /\ ps2 = same ++ grown :: more
    /\ fst grown = fst last /\ grows (snd last) (snd grown).
Proof.
  intros NUM ENV fuel template base n b1 b2 ps1 ps2 NC E1 E2. unfold auto_pages in *.
  set (doc := fun i => pf_new (template (n + Z.of_nat i)%Z)) in *.
  assert (O : open_pages doc). { intros k. unfold doc, pf_new. cbn. specialize (NC (n + Z.of_nat k)%Z). destruct (pg_columns _); [congruence|discriminate]. }
  assert (F : fresh doc).
  { intros i. unfold flat_todo. set (l := concat _).
    assert (A : Forall (fun c => cf_blocks c = []) l).
    { apply Forall_concat, Forall_map, Forall_forall. intros k _. unfold doc, pf_new. cbn. apply Forall_map, Forall_forall. reflexivity. }
    destruct (nth_in_or_default (S i) l no_col) as [I|D]; [|rewrite D; reflexivity]. rewrite Forall_forall in A. apply A, I. }
  destruct (auto_loop fuel b1 base doc) as [[c1 d1]|] eqn:A1; [|discriminate]. cbn [bind fst snd] in E1. apply Ok_inj in E1. subst ps1.
  rewrite (loop_app _ _ _ b2 _ _ _ A1) in E2.
  destruct (auto_loop fuel b2 base d1) as [[c2 d2]|] eqn:A2; [|discriminate]. cbn [bind fst snd] in E2. apply Ok_inj in E2. subst ps2.
  destruct (loop_grows _ _ _ _ _ _ O F A1) as (_ & _ & _ & O1 & F1).
  destruct (loop_grows _ _ _ _ _ _ O1 F1 A2) as (B & G & T & _ & _).
  exists (map (fun p => (pf_base p, pf_done p)) c1). eexists. 
  destruct c2 as [|p c2]; cbn in B, G.
  - eexists _, []. rewrite app_nil_r. split; [reflexivity|]. split; [reflexivity|]. cbn. split; [exact B|exact G].
  - eexists (pf_base p, pf_done p), _. split; [reflexivity|]. rewrite map_app, <- app_assoc. cbn [map app]. split; [reflexivity|]. cbn [fst snd].
    split; [exact B|]. inversion T as [|q l H]; subst. rewrite H, app_nil_r in G. exact G.
Qed.
Print Assumptions C87_layout.

(** Files: more items after the last one (or fewer, or one that fails) leave the header and the
    two objects of every page as they are, byte for byte. *)
Lemma finished_pages {NUM : Num} {ENV : Env NUM} compress fuel ttf_of items sty fid :
  snd (write_iter compress fuel ttf_of items sty fid) = Finished ->
  snd (pages_gen fuel (full_or full_default sty) items 0) = None.
Proof.
  intros F. unfold write_iter, write_gen in F.
  destruct (snd (chunks_gen compress _ _)) eqn:C; try discriminate F.
  assert (D : snd (doc_objects fuel ttf_of items (full_or full_default sty)) = Finished).
  { revert C. generalize (fst (doc_objects fuel ttf_of items (full_or full_default sty))) (snd (doc_objects fuel ttf_of items (full_or full_default sty))). clear.
    induction l as [|o l IH]; intros e C; cbn [chunks_gen] in C; [exact C|]. destruct (write_obj compress o); [|discriminate]. apply IH, C. }
  unfold doc_objects in D. destruct (snd (page_objects _ _ _ _ _)) as [[r cs]|]; [|discriminate].
  destruct (snd (pages_gen fuel _ items 0)); [discriminate|reflexivity].
Qed.
Theorem C87_later_items : forall (NUM : Num) (ENV : Env NUM) compress fuel ttf_of sty fid items later,
  let g := write_iter compress fuel ttf_of items sty fid in
  let g' := write_iter compress fuel ttf_of (items ++ later) sty fid in
  snd g = Finished ->
  exists pages chunks r r', laid fuel (full_or full_default sty) items 0 pages
    /\ List.length chunks = 1 + 2 * List.length pages
    /\ fst g = chunks ++ r /\ fst g' = chunks ++ r'.
Proof.
  intros NUM ENV compress fuel ttf_of sty fid items later g g' F.
  pose proof (finished_pages _ _ _ _ _ _ F) as N. set (base := full_or full_default sty) in *.
  destruct (pages_gen fuel base items 0) as [ys e] eqn:P. cbn [snd] in N. subst e.
  destruct (pages_laid fuel base items 0 ys P) as (pages & L & M).
  destruct (same_prefix compress fuel ttf_of sty fid items (items ++ later) ys [] (fst (pages_gen fuel base later (0 + Z.of_nat (List.length ys))%Z))) as (c & r & r' & A & B & C).
  - fold base. rewrite P, app_nil_r. reflexivity.
  - fold base. rewrite pages_gen_app, P. reflexivity.
  - exact F.
  - exists pages, c, r, r'. split; [exact L|]. split; [|split; [exact B|exact C]].
    apply (f_equal (@List.length _)) in M. rewrite !map_length in M. unfold yielded in *. lia.
Qed.
Print Assumptions C87_later_items.
(** More blocks at the end of automatic pages, and more items after these, leave the
    header and the two objects of every page but the last one as they are. *)
Theorem C87_later_blocks : forall (NUM : Num) (ENV : Env NUM) compress fuel ttf_of sty fid items blocks template more later,
  let g := write_iter compress fuel ttf_of (items ++ [DAuto blocks template]) sty fid in
  let g' := write_iter compress fuel ttf_of (items ++ DAuto (blocks ++ more) template :: later) sty fid in
  snd g = Finished ->
  exists pages chunks r r', laid fuel (full_or full_default sty) (items ++ [DAuto blocks template]) 0 pages
    /\ 1 <= List.length pages /\ List.length chunks = 1 + 2 * (List.length pages - 1)
    /\ fst g = chunks ++ r /\ fst g' = chunks ++ r'.
Proof.
  intros NUM ENV compress fuel ttf_of sty fid items blocks template more later g g' F.
  pose proof (finished_pages _ _ _ _ _ _ F) as N. set (base := full_or full_default sty) in *.
  destruct (pages_gen fuel base (items ++ [DAuto blocks template]) 0) as [ys e] eqn:P. cbn [snd] in N. subst e.
  destruct (pages_laid fuel base _ 0 ys P) as (pages & L & M). pose proof P as P1.
  rewrite pages_gen_app in P. destruct (pages_gen fuel base items 0) as [y0 [e|]] eqn:P0; [discriminate P|]. cbn [fst snd] in P.
  remember (0 + Z.of_nat (List.length y0))%Z as k eqn:K. cbn [pages_gen] in P.
  assert (X : exists same lst, ys = y0 ++ same ++ [lst] /\ exists t, fst (item_gen fuel base (DAuto (blocks ++ more) template) (k + 1)) = same ++ t).
  { cbn [item_gen] in P |- *. rewrite auto_gen_app. set (doc := fun i => pf_new (template (k + 1 + Z.of_nat i)%Z)) in *.
    destruct (auto_gen fuel blocks base [] doc) as [c1 [[fs d1]|e]] eqn:A; cbn [fst snd] in *; [|discriminate P].
    cbv zeta in P. cbn [fst snd] in P. injection P as <-. rewrite app_nil_r. eexists _, _. split; [reflexivity|].
    destruct (auto_gen fuel more base fs d1) as [c2 [[fs2 d2]|e2]]; cbn [fst snd]; rewrite map_app, <- ?app_assoc; eexists; reflexivity. }
  destruct X as (same & lst & Y & t & T).
  destruct (same_prefix compress fuel ttf_of sty fid (items ++ [DAuto blocks template]) (items ++ DAuto (blocks ++ more) template :: later) (y0 ++ same) [lst]
     (t ++ skipn (List.length (same ++ t)) (fst (pages_gen fuel base (DAuto (blocks ++ more) template :: later) k)))) as (c & r & r' & A & B & C).
  - fold base. rewrite P1. cbn [fst]. rewrite Y, app_assoc. reflexivity.
  - fold base. rewrite pages_gen_app, P0. cbn [fst snd]. rewrite <- K. rewrite <- app_assoc. f_equal.
    rewrite app_assoc. cbn [pages_gen].
    destruct (item_gen fuel base (DAuto (blocks ++ more) template) (k + 1)) as [l e]. cbn [fst snd] in *. subst l.
    destruct e as [e|]; cbn [fst].
    + rewrite skipn_all, app_nil_r. reflexivity.
    + rewrite skipn_app, skipn_all, Nat.sub_diag. reflexivity.
  - exact F.
  - exists pages, c, r, r'. split; [exact L|]. apply (f_equal (@List.length _)) in M. rewrite !map_length in M.
    rewrite Y in M. rewrite !app_length in M. cbn [List.length] in M. split; [lia|]. split; [|split; [exact B|exact C]].
    rewrite A, app_length. lia.
Qed.
Print Assumptions C87_later_blocks.
(** An example with 8 pages: with more paragraphs, 1 + 2 * 7 chunks and the dictionary of the last page stay. *)
#[local] Existing Instance ex_words.
Definition ex_blocks : list (@block QcNum) := map (@BPara QcNum) ex_ps.
Definition ex_file (blocks : list (@block QcNum)) := write_iter (fun b => b) 100 ex_ttfs ([DPage ex_page] ++ [DAuto blocks ex_template]) style_empty [].
Fixpoint common (a b : list bytes) : nat :=
  match a, b with
  | x :: a', y :: b' => if list_eq_dec N.eq_dec x y then S (common a' b') else 0
  | _, _ => 0
  end.
Example C87_example :
  snd (ex_file ex_blocks) = Finished
  /\ (forall k, pg_columns (ex_template k) <> [])
  /\ List.length (fst (ex_file ex_blocks)) = 28
  /\ common (fst (ex_file ex_blocks)) (fst (ex_file (ex_blocks ++ ex_blocks))) = 16.
Proof. split; [vm_compute; reflexivity|]. split; [intros k; cbn; try destruct (Z.even k); discriminate|]. split; vm_compute; reflexivity. Qed.
