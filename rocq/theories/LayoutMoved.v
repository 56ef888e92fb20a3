(** * LayoutMoved: where columns are, and on which page, does not matter for what is put in them. *)
From Coq Require Import QArith Qcanon FunctionalExtensionality.
From Verif Require Import Base Num Fonts State Style TextSpec StateProofs Words WordsSpec WordProofs WordOps Parse Render RenderSpec
  Firstfit LineSpec FirstfitProofs KnuthPlass Optimum Common Draw TextBlock Layout LayoutSpec LayoutProofs LayoutText LayoutPages.
From Coq Require Import Lia.
Local Open Scope list_scope.
Open Scope nat_scope.

(** ** Filling pages is filling one sequence of columns *)
Section Run.
Context {NUM : Num} {ENV : Env NUM}.
Fixpoint run (fuel : nat) (blocks : list block) (base : full) (cs : nat -> colfill) : res (list colfill * (nat -> colfill)) :=
  match blocks with
  | [] => Ok ([], cs)
  | b :: r =>
      do out <- block_columns fuel b base cs;
      do x <- run fuel r base (next_cols out cs);
      Ok (removelast out ++ fst x, snd x)
  end.
Lemma fill_done fuel : forall filled doc comp doc', filled <> [] -> (forall k, pf_done (doc (S k)) = []) ->
  fill_loop fuel filled doc = Ok (comp, doc') ->
  flat_map pf_done comp ++ pf_done (doc' 0) = pf_done (doc 0) ++ removelast filled
  /\ forall k, pf_done (doc' (S k)) = [].
Proof.
  induction fuel as [|fuel IH]; intros filled doc comp doc' NE D E; [discriminate|]. cbn [fill_loop] in E.
  set (n := List.length (pf_todo (doc 0))) in *.
  destruct (skipn n filled) as [|c0 rest] eqn:ER.
  - assert (LE : List.length filled <= n). { apply (f_equal (@List.length _)) in ER. rewrite skipn_length in ER. cbn in ER. lia. }
    rewrite firstn_all2 in E by exact LE. destruct (exists_last NE) as (init & lst & EF). rewrite EF in E |- *.
    unfold pf_reopen in E. cbn [pf_done pf_base pf_todo] in E. rewrite app_assoc, rev_app_distr in E. cbn [rev app bind] in E.
    apply Ok_inj in E. injection E as <- <-. cbn [flat_map app scons pf_done]. rewrite rev_involutive, removelast_last. split; [reflexivity|].
    intros k. apply (D k).
  - apply bind_ok in E as ([c1 d1] & E1 & E). apply Ok_inj in E. cbn [fst snd] in E. injection E as <- <-.
    destruct (IH (c0 :: rest) (sdrop 1 doc) c1 d1 ltac:(discriminate) ltac:(intros k; apply (D (S k))) E1) as (G1 & G2). split; [|exact G2].
    cbn [flat_map pf_done]. rewrite <- !app_assoc, G1. change (sdrop 1 doc 0) with (doc 1). rewrite D. cbn [app].
    f_equal. rewrite <- removelast_app by discriminate. rewrite <- ER. f_equal. apply firstn_skipn.
Qed.
Definition fresh_done (doc : nat -> pagefill) : Prop := open_pages doc /\ forall k, pf_done (doc (S k)) = [].
Lemma block_some fuel b base cs out : block_columns fuel b base cs = Ok out -> out <> [].
Proof.
  destruct b as [p|c m]; cbn [block_columns]; intros E.
  - apply para_only_adds in E. apply E.
  - apply Ok_inj in E. subst. unfold rule_columns. destruct (nltb _ _); discriminate.
Qed.
Lemma fill_step filled doc : filled <> [] -> fresh_done doc ->
  exists comp doc', fill_into filled doc = Ok (comp, doc') /\ fresh_done doc'
    /\ flat_map pf_done comp ++ pf_done (doc' 0) = pf_done (doc 0) ++ removelast filled
    /\ flat_todo doc' = next_cols filled (flat_todo doc).
Proof.
  intros NE (O & D). destruct (fill_loop_spec (S (List.length filled)) filled doc (Nat.lt_succ_diag_r _) NE O) as (comp & doc' & E & _ & _ & FT & O').
  exists comp, doc'. destruct (fill_done _ _ _ _ _ NE D E) as (G1 & G2).
  split; [unfold fill_into; destruct filled; [congruence|exact E]|]. split; [split; assumption|]. split; [exact G1|].
  apply functional_extensionality. intros j. rewrite FT. reflexivity.
Qed.
Lemma loop_runs fuel base blocks : forall doc, fresh_done doc ->
  match auto_loop fuel blocks base doc, run fuel blocks base (flat_todo doc) with
  | Ok (comp, doc'), Ok (l, cs) => fresh_done doc' /\ flat_map pf_done comp ++ pf_done (doc' 0) = pf_done (doc 0) ++ l /\ flat_todo doc' = cs
  | Err e, Err e' => e = e'
  | _, _ => False
  end.
Proof.
  induction blocks as [|b r IH]; intros doc O; cbn [auto_loop run].
  - split; [exact O|]. split; [rewrite app_nil_r; reflexivity|reflexivity].
  - destruct (block_columns fuel b base (flat_todo doc)) as [out|e] eqn:E; cbn [bind]; [|reflexivity].
    assert (NE := block_some _ _ _ _ _ E). destruct (fill_step out doc NE O) as (c1 & d1 & E1 & O1 & G1 & F1).
    rewrite E1. cbn [bind fst snd]. rewrite <- F1. specialize (IH d1 O1).
    destruct (auto_loop fuel r base d1) as [[c2 d2]|e2]; destruct (run fuel r base (flat_todo d1)) as [[l cs]|e3]; cbn [bind fst snd]; auto.
    destruct IH as (I1 & I2 & I3). split; [exact I1|]. split; [|exact I3].
    rewrite flat_map_app, <- app_assoc, I2, !app_assoc, G1. reflexivity.
Qed.
(** the columns on the pages are those of the run *)
Lemma pages_run fuel base blocks template pnum : (forall i, pg_columns (template i) <> []) ->
  match auto_pages fuel blocks template base pnum, run fuel blocks base (flat_todo (fun i => pf_new (template (pnum + Z.of_nat i)%Z))) with
  | Ok pages, Ok (l, cs) => exists n, flat_map snd pages = l ++ map cs (seq 0 (S n))
  | Err e, Err e' => e = e'
  | _, _ => False
  end.
Proof.
  intros T. set (doc := fun i => _).
  assert (O : fresh_done doc).
  { split; [|reflexivity]. intros k. unfold doc, pf_new. cbn [pf_todo]. specialize (T (pnum + Z.of_nat k)%Z). destruct (pg_columns _); [congruence|discriminate]. }
  assert (L := loop_runs fuel base blocks doc O). unfold auto_pages. fold doc.
  destruct (auto_loop fuel blocks base doc) as [[comp doc']|e]; destruct (run fuel blocks base (flat_todo doc)) as [[l cs]|e3]; cbn [bind fst snd]; auto.
  destruct L as ((O1 & D1) & L2 & <-). change (pf_done (doc 0) ++ l) with l in L2.
  assert (NT := O1 0). exists (List.length (pf_todo (doc' 0)) - 1).
  rewrite flat_map_app. cbn [flat_map snd]. rewrite app_nil_r, app_assoc.
  replace (flat_map snd (map (fun p => (pf_base p, pf_done p)) comp)) with (flat_map pf_done comp) by (clear; induction comp; cbn; congruence).
  rewrite L2. f_equal. assert (X := todo_as_flat doc' 0 O1). change (off doc' 0) with 0 in X. rewrite <- X at 1. f_equal. f_equal.
  destruct (pf_todo (doc' 0)); [congruence|]. cbn [List.length]. lia.
Qed.
End Run.

(** ** Columns moved *)
Definition shift_xy (dx dy : Qc) (p : @xy QcNum) : @xy QcNum := @mkXY QcNum (px p + dx)%Qc (py p + dy)%Qc.
(** a block put elsewhere: text is where it is put; the ends of a rule move with it *)
Definition shift_shape (dx dy : Qc) (s : @shaped QcNum) : @shaped QcNum :=
  match s with
  | SText ls lead a h => SText ls lead a h
  | SRule p q c h => SRule (shift_xy dx dy p) (shift_xy dx dy q) c h
  end.
Definition shift_blocks (dx dy : Qc) (bs : list (@xy QcNum * @shaped QcNum)) := map (fun p => (shift_xy dx dy (fst p), shift_shape dx dy (snd p))) bs.
(** the same in both columns, as seen from their lower left corners *)
Definition same_inside (c c' : @colfill QcNum) : Prop :=
  c_width (cf_box c') = c_width (cf_box c) /\ c_height (cf_box c') = c_height (cf_box c) /\ cf_free c' = cf_free c
  /\ cf_blocks c' = shift_blocks (px (c_origin (cf_box c')) - px (c_origin (cf_box c)))%Qc (py (c_origin (cf_box c')) - py (c_origin (cf_box c)))%Qc (cf_blocks c).
Lemma mv0 (a b : Qc) : b = (a + (b - a))%Qc. Proof. ring. Qed.
Lemma mv1 (a b k : Qc) : (b + k)%Qc = (a + k + (b - a))%Qc. Proof. ring. Qed.
Lemma mv2 (a b k m : Qc) : (b + k - m)%Qc = (a + k - m + (b - a))%Qc. Proof. ring. Qed.
Section Moved.
Context {ENV : Env QcNum}.
Lemma same_add c c' s s' : same_inside c c' -> sh_height s' = sh_height s ->
  s' = shift_shape (px (c_origin (cf_box c')) - px (c_origin (cf_box c)))%Qc (py (c_origin (cf_box c')) - py (c_origin (cf_box c)))%Qc s ->
  same_inside (cf_add c s) (cf_add c' s').
Proof.
  intros (W & H & F & B) HE SE. unfold same_inside, cf_add. cbn [cf_box cf_free cf_blocks]. repeat split; auto.
  - rewrite F, HE. reflexivity.
  - unfold shift_blocks in *. rewrite map_app, B. cbn [map fst snd]. rewrite <- SE. f_equal. f_equal. f_equal.
    unfold cf_cursor, shift_xy, add_y. cbn [px py]. rewrite F. cbn [nadd QcNum]. f_equal; [apply mv0|apply mv1].
Qed.
Definition same_cols (cs cs' : nat -> @colfill QcNum) : Prop := forall i, same_inside (cs i) (cs' i).
Lemma same_chunks lead a : forall (chunks : list (list (@tline QcNum))) cs cs', same_cols cs cs' ->
  Forall2 same_inside (add_chunks cs (map (chunk lead a) chunks)) (add_chunks cs' (map (chunk lead a) chunks)).
Proof.
  induction chunks as [|ls r IH]; intros cs cs' R; cbn [map add_chunks]; constructor.
  - apply same_add; [apply R|reflexivity|reflexivity].
  - apply IH. intros i. apply R.
Qed.
Lemma same_empty c c' : same_inside c c' -> match cf_blocks c' with [] => false | _ => true end = match cf_blocks c with [] => false | _ => true end.
Proof. intros (_ & _ & _ & B). rewrite B. destruct (cf_blocks c); reflexivity. Qed.
Lemma same_fill fuel p txt cs cs' st lead : same_cols cs cs' ->
  match fill_paragraph fuel p txt cs st lead, fill_paragraph fuel p txt cs' st lead with
  | Ok (o, s, b), Ok (o', s', b') => Forall2 same_inside o o' /\ s = s' /\ b = b'
  | Err e, Err e' => e = e'
  | _, _ => False
  end.
Proof.
  intros R. unfold fill_paragraph. rewrite (same_empty _ _ (R 0)).
  assert (FE : (fun i => (c_width (cf_box (cs' i)), cf_free (cs' i))) = (fun i => (c_width (cf_box (cs i)), cf_free (cs i)))).
  { apply functional_extensionality. intros i. destruct (R i) as (W & _ & F & _). rewrite W, F. reflexivity. }
  rewrite FE. destruct (into_words txt st) as [[[cmd ws] ex]|e]; cbn [bind]; [|reflexivity].
  destruct (indent_first ws (p_indent p)) as [ws'|e]; cbn [bind]; [|reflexivity].
  destruct (shape _ _ _ _ _ _) as [chunks|e]; cbn [bind]; [|reflexivity].
  split; [apply same_chunks; exact R|]. split; reflexivity.
Qed.
Lemma F2_same {A B} (P : A -> B -> Prop) l l' : Forall2 P l l' -> List.length l = List.length l'. Proof. induction 1; cbn; congruence. Qed.
Lemma F2_rev {A B} (P : A -> B -> Prop) l l' : Forall2 P l l' -> Forall2 P (rev l) (rev l').
Proof. induction 1; cbn [rev]; [constructor|]. apply Forall2_app; [assumption|]. constructor; [assumption|constructor]. Qed.
Lemma same_para fuel p lead : forall gs cs cs' st, same_cols cs cs' ->
  match para_loop fuel p gs cs st lead, para_loop fuel p gs cs' st lead with
  | Ok o, Ok o' => Forall2 same_inside o o'
  | Err e, Err e' => e = e'
  | _, _ => False
  end.
Proof.
  induction gs as [|g r IH]; intros cs cs' st R; cbn [para_loop].
  - constructor; [apply R|constructor].
  - assert (X := same_fill fuel p g cs cs' st lead R).
    destruct (fill_paragraph fuel p g cs st lead) as [[[o s] b]|e]; destruct (fill_paragraph fuel p g cs' st lead) as [[[o' s'] b']|e'];
      cbn [bind]; try contradiction; [|exact X].
    destruct X as (F2 & <- & <-). assert (LE := F2_same _ _ _ F2). apply F2_rev in F2. rewrite <- LE.
    destruct F2 as [|col col' fl fl' C FL]; [reflexivity|]. destruct b.
    + assert (R' : same_cols (scons col (sdrop (List.length o) cs)) (scons col' (sdrop (List.length o) cs'))). { intros [|i]; [exact C|apply R]. }
      specialize (IH _ _ s R'). destruct (para_loop fuel p r (scons col _) s lead) as [x|e]; destruct (para_loop fuel p r (scons col' _) s lead) as [x'|e'];
        cbn [bind]; try contradiction; [|exact IH]. apply Forall2_app; [apply F2_rev; exact FL|exact IH].
    + apply Forall2_app; [apply F2_rev; exact FL|]. constructor; [exact C|constructor].
Qed.
Lemma same_rule c m cs cs' : same_cols cs cs' -> Forall2 same_inside (rule_columns c m cs) (rule_columns c m cs').
Proof.
  intros R. assert (R0 := R 0). destruct R0 as (W & H & F & B). unfold rule_columns. rewrite F, W. apply Forall2_app.
  - destruct (nltb _ _); constructor; [apply R|constructor].
  - constructor; [|constructor]. apply same_add; [apply R|reflexivity|]. cbn [shift_shape]. unfold shift_xy. cbn [px py nadd nsub QcNum].
    f_equal; f_equal; first [apply mv1|apply mv2].
Qed.
Lemma same_block fuel b base cs cs' : same_cols cs cs' ->
  match block_columns fuel b base cs, block_columns fuel b base cs' with
  | Ok o, Ok o' => Forall2 same_inside o o'
  | Err e, Err e' => e = e'
  | _, _ => False
  end.
Proof. intros R. destruct b as [p|c m]; cbn [block_columns]; [apply same_para; exact R|apply same_rule; exact R]. Qed.
Lemma same_next o o' cs cs' : Forall2 same_inside o o' -> same_cols cs cs' -> same_cols (next_cols o cs) (next_cols o' cs').
Proof.
  intros F2 R j. unfold next_cols. rewrite <- (F2_same _ _ _ F2). generalize (List.length o - 1 + j). intros k.
  revert k. assert (G : forall d d' k, same_inside d d' -> same_inside (nth k o d) (nth k o' d')).
  { intros d d' k D. revert k. induction F2 as [|x x' l l' X _ IH]; intros [|k]; cbn [nth]; auto. }
  intros k. apply G, R.
Qed.
Lemma F2_removelast {A B} (P : A -> B -> Prop) l l' : Forall2 P l l' -> Forall2 P (removelast l) (removelast l').
Proof. induction 1 as [|x x' l l' X F2 IH]; [constructor|]. cbn [removelast]. destruct F2; [constructor|]. constructor; [exact X|exact IH]. Qed.
Lemma same_run fuel base blocks : forall cs cs', same_cols cs cs' ->
  match run fuel blocks base cs, run fuel blocks base cs' with
  | Ok (l, d), Ok (l', d') => Forall2 same_inside l l' /\ same_cols d d'
  | Err e, Err e' => e = e'
  | _, _ => False
  end.
Proof.
  induction blocks as [|b r IH]; intros cs cs' R; cbn [run]; [split; [constructor|exact R]|].
  assert (X := same_block fuel b base cs cs' R).
  destruct (block_columns fuel b base cs) as [o|e]; destruct (block_columns fuel b base cs') as [o'|e']; cbn [bind]; try contradiction; [|exact X].
  specialize (IH _ _ (same_next _ _ _ _ X R)).
  destruct (run fuel r base (next_cols o cs)) as [[l d]|e]; destruct (run fuel r base (next_cols o' cs')) as [[l' d']|e']; cbn [bind fst snd]; try contradiction; [|exact IH].
  destruct IH as (I1 & I2). split; [|exact I2]. apply Forall2_app; [apply F2_removelast; exact X|exact I1].
Qed.
(** columns never reached *)
Lemma run_tail fuel base blocks : forall cs l d, run fuel blocks base cs = Ok (l, d) -> forall i, d (S i) = cs (List.length l + S i).
Proof.
  induction blocks as [|b r IH]; intros cs l d E i; cbn [run] in E.
  - apply Ok_inj in E. injection E as <- <-. reflexivity.
  - apply bind_ok in E as (o & E1 & E). apply bind_ok in E as ([l1 d1] & E2 & E). apply Ok_inj in E. cbn [fst snd] in E. injection E as <- <-.
    rewrite (IH _ _ _ E2 i). unfold next_cols. assert (NE := block_some _ _ _ _ _ E1). rewrite app_length.
    assert (LR : List.length (removelast o) = List.length o - 1).
    { destruct (exists_last NE) as (a & x & ->). rewrite removelast_last, app_length. cbn. lia. }
    assert (0 < List.length o) by (destruct o; [congruence|cbn; lia]).
    rewrite nth_overflow by lia. f_equal. lia.
Qed.
End Moved.
