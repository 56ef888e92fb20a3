(** * ScaleOptimum: optimal lines in another size.
    The ratios by which lines are stretched or shrunk, and so the demerits, are the same. *)
From Coq Require Import QArith Qcanon Qround.
From Verif Require Import Base Gfmt Num Fonts State Style Words Parse Show Firstfit KnuthPlass Optimum ScaleWords ScaleText ScaleLines.
From Coq Require Import Lia FunctionalExtensionality.
Local Open Scope list_scope.
Open Scope nat_scope.

Section Scale.
Context {ENV : Env QcNum}.
Variable k : scaling.
Hypothesis K : (0 < k)%Qc.
Notation zst := (zst k). Notation zcmd := (zcmd k). Notation zword := (zword k). Notation zwl := (zwl k). Notation zbox := (zbox k).
Ltac zz := match goal with |- @eq _ ?a ?b => change (@eq Qc a b) end; cbn [nadd nsub nmul ndiv QcNum]; ring.
Notation node := (@node QcNum). Notation kbox := (@kbox QcNum).
(** ** Breaks *)
Definition zkb (b : kbox) : kbox :=
  @mkKBox QcNum (kb_measure b * k)%Qc (kb_stretch b * k)%Qc (kb_shrink b * k)%Qc (kb_incl_space b * k)%Qc (kb_incl_hyphen b * k)%Qc (kb_hyphenated b) (kb_no_break b).
Fixpoint znode (n : node) : node :=
  match n with Root => Root | Node p l r f d m st sh h q => @Node QcNum p l r f d (m * k)%Qc (st * k)%Qc (sh * k)%Qc h (znode q) end.
Lemma zn_pos n : n_pos (znode n) = n_pos n. Proof. destruct n; reflexivity. Qed.
Lemma zn_line n : n_line (znode n) = n_line n. Proof. destruct n; reflexivity. Qed.
Lemma zn_fitness n : n_fitness (znode n) = n_fitness n. Proof. destruct n; reflexivity. Qed.
Lemma zn_demerits n : n_demerits (znode n) = n_demerits n. Proof. destruct n; reflexivity. Qed.
Lemma zn_hyphenated n : n_hyphenated (znode n) = n_hyphenated n. Proof. destruct n; reflexivity. Qed.
Lemma zn_measure n : n_measure (znode n) = (n_measure n * k)%Qc. Proof. destruct n; [apply z_0|reflexivity]. Qed.
Lemma zn_stretch n : n_stretch (znode n) = (n_stretch n * k)%Qc. Proof. destruct n; [apply z_0|reflexivity]. Qed.
Lemma zn_shrink n : n_shrink (znode n) = (n_shrink n * k)%Qc. Proof. destruct n; [apply z_0|reflexivity]. Qed.
Lemma z_rfn ragged (m st sh : Qc) (b : kbox) (space : Qc) :
  @ratio_fn QcNum ragged (m * k)%Qc (st * k)%Qc (sh * k)%Qc (zkb b) (space * k)%Qc = @ratio_fn QcNum ragged m st sh b space.
Proof.
  destruct ragged; cbn [ratio_fn].
  - unfold ratio_ragged. cbn [zkb kb_incl_hyphen kb_stretch]. rewrite z_sub, z_add. rewrite (z_0 k) at 1. rewrite z_le by exact K.
    destruct (@nleb QcNum n0 _); [apply z_pdiv; exact K|reflexivity].
  - unfold ratio_justified. cbn [zkb kb_incl_hyphen kb_stretch kb_shrink]. rewrite !z_sub. rewrite z_lt by exact K. rewrite z_eq by exact K. rewrite (z_pdiv k K (@nsub QcNum (kb_incl_hyphen b) m) space).
    destruct (@nltb QcNum (@nsub QcNum (kb_incl_hyphen b) m) space); rewrite z_pdiv by exact K; reflexivity.
Qed.
Lemma z_key a b : same_key (znode a) (znode b) = same_key a b.
Proof. unfold same_key. rewrite !zn_line, !zn_pos, !zn_fitness. reflexivity. Qed.
Lemma z_net_add g n : net_add (map znode g) (znode n) = map znode (net_add g n).
Proof.
  induction g as [|x g IH]; [reflexivity|]. cbn [map net_add]. rewrite z_key, !zn_demerits. destruct (same_key x n); [destruct (nltb _ _); reflexivity|]. rewrite IH. reflexivity.
Qed.
Lemma z_net_remove g n : net_remove (map znode g) (znode n) = map znode (net_remove g n).
Proof. induction g as [|x g IH]; [reflexivity|]. cbn [map net_remove]. rewrite z_key. destruct (same_key x n); [reflexivity|]. rewrite IH. reflexivity. Qed.
Section Fit.
Variables (width : nat -> @num QcNum) (t : @tol QcNum) (P : @params QcNum) (ragged : bool).
Definition zwidth (w : nat -> @num QcNum) : nat -> @num QcNum := fun i => (w i * k)%Qc.
Lemma z_node_ratio n b : node_ratio (zwidth width) ragged (znode n) (zkb b) = node_ratio width ragged n b.
Proof. unfold node_ratio. rewrite zn_measure, zn_stretch, zn_shrink, zn_line. apply z_rfn. Qed.
Lemma z_demerits a b c r h n : line_demerits a b c r h (znode n) = line_demerits a b c r h n.
Proof. unfold line_demerits. rewrite zn_hyphenated, zn_fitness, zn_demerits. reflexivity. Qed.
Lemma z_next pos b bn n r : next_node P pos (zkb b) (zkb bn) (znode n) r = znode (next_node P pos b bn n r).
Proof. unfold next_node. cbn [znode zkb kb_incl_space kb_stretch kb_shrink kb_hyphenated]. rewrite zn_line, z_demerits. reflexivity. Qed.
Lemma z_visit ns pos b bn : forall g, visit (zwidth width) t P ragged (map znode ns) pos (zkb b) (zkb bn) (map znode g) = rmap (map znode) (visit width t P ragged ns pos b bn g).
Proof.
  induction ns as [|n ns IH]; intros g; [reflexivity|]. cbn [map visit]. rewrite z_node_ratio. destruct (node_ratio width ragged n b) as [r|e]; [|reflexivity]. cbn [bind].
  rewrite z_next, z_net_add, z_net_remove. rewrite <- IH. f_equal. destruct (nltb r _); [reflexivity|]. destruct (within r t); reflexivity.
Qed.
Definition zscan (x : list node * kbox * nat) := (map znode (fst (fst x)), zkb (snd (fst x)), snd x).
Lemma z_scan rest : forall b pos g, scan (zwidth width) t P ragged (zkb b) (map zkb rest) pos (map znode g) = rmap zscan (scan width t P ragged b rest pos g).
Proof.
  induction rest as [|bn rest IH]; intros b pos g; [reflexivity|]. cbn [map scan]. change (kb_no_break (zkb b)) with (kb_no_break b). destruct (kb_no_break b); [apply IH|].
  destruct g as [|n g]; [reflexivity|]. change (map znode (n :: g)) with (znode n :: map znode g) at 1. cbn [map]. change (znode n :: map znode g) with (map znode (n :: g)). rewrite z_visit.
  destruct (visit width t P ragged (n :: g) pos b bn (n :: g)) as [g'|e]; [|reflexivity]. unfold rmap at 1. cbn [bind]. apply IH.
Qed.
Definition zend (e : @endnode QcNum) : @endnode QcNum := @mkEnd QcNum (e_pos e) (e_ratio e) (e_demerits e) (e_measure e * k)%Qc (znode (e_prev e)).
Definition zbr (b : @break QcNum) : @break QcNum := @mkBreak QcNum (br_pos b) (br_adjust b) (br_demerits b) (br_width b * k)%Qc.
Lemma z_ends ns b pos : end_options (zwidth width) P ragged (map znode ns) (zkb b) pos = rmap (map zend) (end_options width P ragged ns b pos).
Proof.
  induction ns as [|n ns IH]; [reflexivity|]. cbn [map end_options]. rewrite z_node_ratio. destruct (node_ratio width ragged n b) as [r|e]; [|reflexivity]. cbn [bind].
  rewrite IH. destruct (end_options width P ragged ns b pos) as [l|e]; [|reflexivity]. unfold rmap. cbn [bind]. rewrite zn_fitness, zn_demerits. destruct (nltb _ _); reflexivity.
Qed.
Lemma z_least l : forall e, least (zend e) (map zend l) = zend (least e l).
Proof. induction l as [|x l IH]; intros e; [reflexivity|]. cbn [map least]. rewrite <- IH. f_equal. cbn [zend e_demerits]. destruct (nltb _ _); reflexivity. Qed.
Lemma z_unroll_node n : unroll_node (znode n) = map zbr (unroll_node n).
Proof. induction n as [|p l r f d m st sh h q IH]; [reflexivity|]. cbn [znode unroll_node]. rewrite IH, map_app, zn_demerits, zn_measure, z_sub. reflexivity. Qed.
Lemma z_unroll e : unroll (zend e) = map zbr (unroll e).
Proof. unfold unroll. cbn [zend e_prev e_pos e_ratio e_demerits e_measure]. rewrite z_unroll_node, map_app, zn_demerits, zn_measure, z_sub. reflexivity. Qed.
Lemma z_optimum bs : optimum_fit (zwidth width) t P ragged (map zkb bs) = rmap (map zbr) (optimum_fit width t P ragged bs).
Proof.
  destruct bs as [|b rest]; [reflexivity|]. cbn [map optimum_fit]. change [@Root QcNum] with (map znode [Root]) at 1. rewrite z_scan.
  destruct (scan width t P ragged b rest 1 [Root]) as [[[g last] pos]|e]; [|reflexivity]. unfold rmap at 1. cbn [bind zscan fst snd]. rewrite z_ends.
  destruct (end_options width P ragged g last pos) as [[|e l]|e]; [reflexivity| |reflexivity]. unfold rmap. cbn [bind map]. rewrite z_least, z_unroll. reflexivity.
Qed.
End Fit.
Lemma z_try ts width P ragged bs : try_fit ts (zwidth width) P ragged (map zkb bs) = rmap (map zbr) (try_fit ts width P ragged bs).
Proof.
  induction ts as [|t ts IH]; [reflexivity|]. cbn [try_fit]. rewrite z_optimum. destruct (optimum_fit width t P ragged bs) as [l|e]; [reflexivity|]. unfold rmap at 1. cbn [bind].
  destruct e; try reflexivity. exact IH.
Qed.
Lemma z_find bs width ragged tolerance P : find_breaks (map zkb bs) (zwidth width) ragged tolerance P = rmap (map zbr) (find_breaks bs width ragged tolerance P).
Proof. destruct bs as [|b bs]; [reflexivity|]. exact (z_try _ width P ragged (b :: bs)). Qed.
(** ** Fragments *)
Notation fragment := (@fragment QcNum). Notation oline := (@oline QcNum).
Definition zfr (f : fragment) : fragment := mkFrag (zwl (fr_txt f)) (option_map zwl (fr_break f)) (zcmd (fr_cmd f)).
Definition zfb (x : fragment * kbox) : fragment * kbox := (zfr (fst x), zkb (snd x)).
Lemma z_unwrap w : unwrap (zwl w) = (zwl (fst (unwrap w)), zcmd (snd (unwrap w))).
Proof. destruct w; reflexivity. Qed.
Lemma z_boxes w : wl_boxes (zwl w) = map zbox (wl_boxes w).
Proof. induction w as [b|w|w IH c]; [reflexivity|reflexivity|exact IH]. Qed.
Lemma z_box_last b : box_last (zbox b) = box_last b.
Proof. destruct b as [s|l st]; [reflexivity|]. apply z_segs_last. Qed.
Lemma z_rl {A B} (f : A -> B) l : removelast (map f l) = map f (removelast l).
Proof. induction l as [|x [|y l] IH]; [reflexivity|reflexivity|]. change (f x :: removelast (map f (y :: l)) = f x :: map f (removelast (y :: l))). rewrite IH. reflexivity. Qed.
Lemma z_chunk bs : forall (w st sh : Qc), chunk_boxes (map zbox bs) (w * k)%Qc (st * k)%Qc (sh * k)%Qc
  = (map zfb (fst (@chunk_boxes QcNum ENV bs w st sh)), (snd (@chunk_boxes QcNum ENV bs w st sh) * k)%Qc).
Proof.
  induction bs as [|b bs IH]; intros w st sh; [reflexivity|]. cbn [map chunk_boxes]. rewrite z_box_hyphen, !z_box_width, !z_add, IH.
  destruct (@chunk_boxes QcNum ENV bs (@nadd QcNum w (box_width b)) st sh) as [l w']. reflexivity.
Qed.
Definition zwb (x : list (fragment * kbox) * @num QcNum * @num QcNum * @num QcNum) : list (fragment * kbox) * @num QcNum * @num QcNum * @num QcNum :=
  let '(l, a, b, c) := x in (map zfb l, (a * k)%Qc, (b * k)%Qc, (c * k)%Qc).
Lemma z_mulr (a b : Qc) : @nmul QcNum (a * k)%Qc b = (@nmul QcNum a b * k)%Qc. Proof. zz. Qed.
Lemma z_ts_w t : @ts_width QcNum (zts k t) = (ts_width t * k)%Qc. Proof. reflexivity. Qed.
Lemma z_word_boxes just w (a b c : Qc) : word_boxes just (zwl w) (a * k)%Qc (b * k)%Qc (c * k)%Qc = rmap zwb (@word_boxes QcNum ENV just w a b c).
Proof.
  unfold word_boxes. rewrite z_unwrap. destruct (unwrap w) as [x cmd]. cbn [fst snd]. rewrite z_boxes, z_rl, z_chunk.
  destruct (@chunk_boxes QcNum ENV (removelast (wl_boxes x)) a b c) as [ch w']. cbn [fst snd]. rewrite z_wl_tail, <- map_rev. destruct (wl_tail x) as [t|]; cbn [option_map].
  - set (v := match rev (wl_boxes x) with [] => [] | b0 :: _ => [b0] end). set (v' := match map zbox (rev (wl_boxes x)) with [] => [] | b0 :: _ => [b0] end).
    assert (V : v' = map zbox v) by (unfold v, v'; destruct (rev (wl_boxes x)); reflexivity). rewrite V.
    set (u := match v with [] => n0 | b0 :: _ => box_width b0 end). set (u' := match map zbox v with [] => n0 | b0 :: _ => box_width b0 end).
    assert (U : u' = (u * k)%Qc) by (unfold u, u'; destruct v; [apply z_0|apply z_box_width]). rewrite U.
    rewrite z_ts_width, z_ts_w, !z_add. unfold rmap. cbn [bind zwb]. rewrite map_app. cbn [map].
    assert (W : match map zbox v with [] => None | b0 :: _ => Some (WBox b0) end = option_map zwl match v with [] => None | b0 :: _ => Some (WBox b0) end) by (destruct v; reflexivity).
    assert (W2 : wl_state (zwl x) = zst (wl_state x)) by apply z_wl_state. rewrite W, W2. destruct just; rewrite ?z_mulr, ?z_add; reflexivity.
  - destruct (rev (wl_boxes x)) as [|e r]; cbn [map]; [reflexivity|]. unfold rmap. cbn [bind zwb]. rewrite map_app, z_box_last, z_box_width, z_add. reflexivity.
Qed.
Lemma z_words_boxes just ws : forall (a b c : Qc), words_boxes just (map zwl ws) (a * k)%Qc (b * k)%Qc (c * k)%Qc = rmap (map zfb) (@words_boxes QcNum ENV just ws a b c).
Proof.
  induction ws as [|w ws IH]; intros a b c; cbn [map words_boxes]; [reflexivity|]. rewrite z_word_boxes. destruct (@word_boxes QcNum ENV just w a b c) as [[[[l a'] b'] c']|e]; [|reflexivity].
  unfold rmap at 1. cbn [bind zwb]. rewrite IH. destruct (@words_boxes QcNum ENV just ws a' b' c') as [l'|e]; [|reflexivity]. unfold rmap. cbn [bind]. rewrite map_app. reflexivity.
Qed.
Lemma z_first_stretch just ws : first_stretch just (map zwl ws) = (@first_stretch QcNum ENV just ws * k)%Qc.
Proof.
  destruct just, ws as [|w ws]; cbn [map first_stretch]; try apply z_0. rewrite z_wl_state.
  change (st_size (zst (wl_state w))) with (st_size (wl_state w) * k)%Qc. change (st_font (zst (wl_state w))) with (st_font (wl_state w)). rewrite !z_mulr. reflexivity.
Qed.
Definition zin (x : list fragment * list kbox) := (map zfr (fst x), map zkb (snd x)).
Lemma z_into_boxes ws just : into_boxes (map zwl ws) just = rmap zin (@into_boxes QcNum ENV ws just).
Proof.
  unfold into_boxes. rewrite z_first_stretch. assert (E := z_words_boxes just ws (@n0 QcNum) (@first_stretch QcNum ENV just ws) (@n0 QcNum)). rewrite <- (z_0 k) in E. rewrite E.
  destruct (@words_boxes QcNum ENV just ws n0 (first_stretch just ws) n0) as [l|e]; [|reflexivity]. unfold rmap, zin. cbn [bind fst snd]. rewrite !map_map. reflexivity.
Qed.
(** ** Lines *)
Definition zol (l : oline) : oline := @mkOLine QcNum (map zwl (ol_words l)) (ol_width l * k)%Qc.
Lemma z_word_stretch w (r : Qc) : word_stretch_tail (zword w) r = rmap zword (@word_stretch_tail QcNum w r).
Proof.
  unfold word_stretch_tail. destruct w as [bs [t|] st]; cbn [ScaleWords.zword w_tail w_boxes w_state option_map]; [|reflexivity].
  destruct (@neqb QcNum r n1); [reflexivity|]. rewrite z_ts_w, z_mul, z_ts_stretch by exact K. destruct (@tspace_stretch QcNum t _ st); reflexivity.
Qed.
Lemma z_wl_stretch w (r : Qc) : wl_stretch_tail (zwl w) r = rmap zwl (@wl_stretch_tail QcNum w r).
Proof.
  induction w as [b|w|w IH c]; cbn [ScaleWords.zwl wl_stretch_tail]; [reflexivity| |].
  - rewrite z_word_stretch. destruct (@word_stretch_tail QcNum w r); reflexivity.
  - rewrite z_wl_tail. destruct (wl_tail w); cbn [option_map]; [|reflexivity]. rewrite IH. destruct (@wl_stretch_tail QcNum w r); reflexivity.
Qed.
Lemma z_ol_stretch l (a : Qc) : oline_stretch (zol l) a = rmap zol (@oline_stretch QcNum l a).
Proof.
  unfold oline_stretch. cbn [zol ol_words]. rewrite (z_mapM (fun w => wl_stretch_tail w (@nmul QcNum a (if @nltb QcNum n0 a then STRETCH_RATIO else SHRINK_RATIO))) zwl zwl) by (intros x; apply z_wl_stretch).
  destruct (mapM _ (ol_words l)); reflexivity.
Qed.
Lemma z_body fs : map (fun f => with_cmd (fr_txt f) (fr_cmd f)) (map zfr fs) = map zwl (map (fun f => with_cmd (fr_txt f) (fr_cmd f)) fs).
Proof. rewrite !map_map. apply map_ext. intros f. cbn [zfr fr_txt fr_cmd]. apply z_with. Qed.
Lemma z_line_words fs : line_words (map zfr fs) = rmap (map zwl) (line_words fs).
Proof.
  unfold line_words. rewrite <- map_rev. destruct (rev fs) as [|f r]; cbn [map]; [reflexivity|]. rewrite <- map_rev, z_body. cbn [zfr fr_break fr_cmd].
  destruct (fr_break f) as [t|]; cbn [option_map].
  - unfold rmap. cbn [bind]. rewrite map_app, z_with. reflexivity.
  - rewrite <- map_rev. destruct (rev (map _ (rev r))) as [|x q]; cbn [map]; [reflexivity|]. unfold rmap. cbn [bind]. rewrite <- map_rev, map_app, z_with. reflexivity.
Qed.
Lemma z_ragged brs fs : forall prev, lines_ragged prev (map zbr brs) (map zfr fs) = rmap (map zol) (lines_ragged prev brs fs).
Proof.
  induction brs as [|b brs IH]; intros prev; cbn [map lines_ragged]; [reflexivity|]. change (br_pos (zbr b)) with (br_pos b). rewrite skipn_map, firstn_map, z_line_words, IH.
  destruct (line_words _) as [ws|e]; [|reflexivity]. unfold rmap at 1. cbn [bind]. destruct (lines_ragged (br_pos b) brs fs); reflexivity.
Qed.
Lemma z_stretch_all brs : forall ls, stretch_all (map zbr brs) (map zol ls) = rmap (map zol) (stretch_all brs ls).
Proof.
  induction brs as [|b brs IH]; intros [|l ls]; try reflexivity. cbn [map stretch_all]. change (br_adjust (zbr b)) with (br_adjust b). rewrite z_ol_stretch.
  destruct (oline_stretch l (br_adjust b)) as [l'|e]; [|reflexivity]. unfold rmap at 1. cbn [bind]. rewrite IH. destruct (stretch_all brs ls); reflexivity.
Qed.
Lemma z_into_lines ragged brs fs : into_lines ragged (map zbr brs) (map zfr fs) = rmap (map zol) (into_lines ragged brs fs).
Proof.
  unfold into_lines. rewrite z_ragged. destruct (lines_ragged 0 brs fs) as [ls|e]; [|reflexivity]. unfold rmap at 1. cbn [bind]. destruct ragged; [reflexivity|]. apply z_stretch_all.
Qed.
(** ** Columns *)
Definition zq (q : @queue QcNum) : @queue QcNum := @mkQueue QcNum (zcols k (q_cols q)) (q_counts q).
Lemma z_mlc (h lead : Qc) ae : @max_line_count QcNum (h * k)%Qc (lead * k)%Qc ae = @max_line_count QcNum h lead ae.
Proof. unfold max_line_count. cbn [nfloordiv QcNum]. rewrite z_ratio by exact K. reflexivity. Qed.
Lemma z_count (cols : nat -> @num QcNum * @num QcNum) (lead : Qc) ae j : count_to (zcols k cols) (lead * k)%Qc ae j = @count_to QcNum cols lead ae j.
Proof. induction j as [|j IH]; cbn [count_to]; [|rewrite IH; f_equal]; apply z_mlc. Qed.
Lemma z_queue (cols : nat -> @num QcNum * @num QcNum) (lead : Qc) ae : queue_new (zcols k cols) (lead * k)%Qc ae = zq (@queue_new QcNum cols lead ae).
Proof. unfold queue_new, zq. cbn [q_cols q_counts]. f_equal. apply functional_extensionality. intros j. apply z_count. Qed.
Lemma z_lengths q : line_length (zq q) = zwidth (line_length q).
Proof. reflexivity. Qed.
Lemma z_slice {A B} (f : A -> B) l a b : pyslice (map f l) a b = map f (pyslice l a b).
Proof. unfold pyslice. rewrite map_length, skipn_map, firstn_map. reflexivity. Qed.
Definition zols (x : list (list oline)) := map (map zol) x.
Lemma z_lpc f : forall ls counts prev j, lines_per_column f (map zol ls) counts prev j = rmap zols (lines_per_column f ls counts prev j).
Proof.
  induction f as [|f IH]; intros ls counts prev j; cbn [lines_per_column]; [reflexivity|]. rewrite z_slice. destruct (pyslice ls prev (counts j)) as [|x r]; cbn [map]; [reflexivity|].
  rewrite IH. destruct (lines_per_column f ls counts (counts j) (S j)); reflexivity.
Qed.
Lemma z_per ls q : per_column (map zol ls) (zq q) = rmap zols (per_column ls q).
Proof. unfold per_column. rewrite map_length. apply z_lpc. Qed.
Section Shape.
Variables (frags : list fragment) (boxes : list kbox) (ragged : bool) (tolerance : @num QcNum) (P : @params QcNum).
Lemma z_lay q : lay (map zfr frags) (map zkb boxes) ragged tolerance P (zq q) = rmap (map zol) (lay frags boxes ragged tolerance P q).
Proof.
  unfold lay. rewrite z_lengths, z_find. destruct (find_breaks boxes (line_length q) ragged tolerance P) as [l|e]; [|reflexivity]. unfold rmap at 1. cbn [bind]. apply z_into_lines.
Qed.
Lemma z_repair f : forall groups q, repair (map zfr frags) (map zkb boxes) ragged tolerance P f (zols groups) (zq q) = rmap zols (repair frags boxes ragged tolerance P f groups q).
Proof.
  induction f as [|f IH]; intros groups q; cbn [repair]; [reflexivity|]. unfold zols at 1. rewrite <- map_rev. destruct (rev groups) as [|l [|p r]]; cbn [map]; [reflexivity|reflexivity|].
  unfold zols at 1 2 3 4 5. rewrite !map_length. change (q_counts (zq q)) with (q_counts q). destruct (_ && _ && _)%bool; [|reflexivity].
  change (shorten_column (zq q) (List.length groups - 2)) with (zq (shorten_column q (List.length groups - 2))). set (q' := shorten_column q _). rewrite z_lay.
  destruct (lay frags boxes ragged tolerance P q') as [ls|e]; [|reflexivity]. unfold rmap at 1. cbn [bind]. rewrite z_per. destruct (per_column ls q') as [g'|e]; [|reflexivity].
  unfold rmap at 1. cbn [bind]. unfold zols at 1. rewrite <- map_rev. destruct (rev g') as [|l' r']; cbn [map]; [apply IH|]. unfold zols. rewrite !map_length.
  destruct (_ && _)%bool; [reflexivity|]. exact (IH g' q').
Qed.
End Shape.
Lemma z_opt f ws cols ae (lead : Qc) avoid ragged tolerance P :
  opt_shape f (map zwl ws) (zcols k cols) ae (lead * k)%Qc avoid ragged tolerance P = rmap zols (@opt_shape QcNum ENV f ws cols ae lead avoid ragged tolerance P).
Proof.
  unfold opt_shape. rewrite z_into_boxes. destruct (@into_boxes QcNum ENV ws (negb ragged)) as [[frags boxes]|e]; [|reflexivity]. unfold rmap at 1. cbn [bind zin fst snd].
  rewrite (z_0 k) at 1. rewrite z_eq by exact K. destruct (@neqb QcNum lead n0); [reflexivity|]. rewrite z_queue. change (q_counts (zq (@queue_new QcNum cols lead ae)) 0) with (q_counts (@queue_new QcNum cols lead ae) 0).
  change (fun i => zcols k cols (S i)) with (zcols k (fun i => cols (S i))). rewrite z_queue.
  set (pq := if (q_counts (@queue_new QcNum cols lead ae) 0 =? 0)%Z then ([[]], @queue_new QcNum (fun i => cols (S i)) lead false) else ([], @queue_new QcNum cols lead ae)).
  assert (PQ : (if (q_counts (@queue_new QcNum cols lead ae) 0 =? 0)%Z then ([[]], zq (@queue_new QcNum (fun i => cols (S i)) lead false)) else ([], zq (@queue_new QcNum cols lead ae)))
               = (zols (fst pq), zq (snd pq))) by (unfold pq; destruct (_ =? 0)%Z; reflexivity).
  rewrite PQ. clearbody pq. destruct pq as [pre q]. cbn [fst snd]. destruct boxes as [|b bx]; cbn [map].
  - unfold rmap, zols. cbn [bind]. rewrite map_app. cbn [map].
    assert (E : zol oline_empty = oline_empty) by (unfold zol, oline_empty; cbn [ol_words ol_width map]; rewrite <- (z_0 k); reflexivity). rewrite E. reflexivity.
  - change (zkb b :: map zkb bx) with (map zkb (b :: bx)). rewrite z_lay. destruct (lay frags (b :: bx) ragged tolerance P q) as [ls|e]; [|reflexivity].
    unfold rmap at 1. cbn [bind]. rewrite map_length. change (q_counts (zq q)) with (q_counts q).
    assert (FIN : forall pre q ls,
      (do groups <- per_column (map zol ls) (zq q); do groups <- (if avoid then repair (map zfr frags) (map zkb (b :: bx)) ragged tolerance P f groups (zq q) else Ok groups); Ok (zols pre ++ groups))
      = rmap zols (do groups <- per_column ls q; do groups <- (if avoid then repair frags (b :: bx) ragged tolerance P f groups q else Ok groups); Ok (pre ++ groups))).
    { clear - K. intros pre q ls. rewrite z_per. destruct (per_column ls q) as [g|e]; [|reflexivity]. unfold rmap at 1. cbn [bind].
      assert (R : (if avoid then repair (map zfr frags) (map zkb (b :: bx)) ragged tolerance P f (zols g) (zq q) else Ok (zols g))
                  = rmap zols (if avoid then repair frags (b :: bx) ragged tolerance P f g q else Ok g)) by (destruct avoid; [apply z_repair|reflexivity]).
      rewrite R. clear R. destruct (if avoid then repair frags (b :: bx) ragged tolerance P f g q else Ok g) as [g'|e]; [|reflexivity]. unfold rmap, zols. cbn [bind]. rewrite map_app. reflexivity. }
    destruct (avoid && ae && _ && _ && _)%bool; cbn [bind].
    + change (remove_first_column (zq q)) with (zq (remove_first_column q)). rewrite z_lay. destruct (lay frags (b :: bx) ragged tolerance P (remove_first_column q)) as [ls'|e]; [|reflexivity].
      unfold rmap at 1. cbn [bind]. assert (PP : zols pre ++ [[]] = zols (pre ++ [[]])) by (unfold zols; rewrite map_app; reflexivity). rewrite PP. apply FIN.
    + apply FIN.
Qed.
End Scale.
