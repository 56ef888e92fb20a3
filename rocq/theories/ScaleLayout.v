(** * ScaleLayout: columns and pages in another size. *)
From Coq Require Import QArith Qcanon Qround.
From Verif Require Import Base Gfmt Num Fonts State Style StateProofs Words Parse Show Render Firstfit KnuthPlass Optimum Common Draw Layout Regroup
  ScaleWords ScaleText ScaleLines ScaleOptimum.
From Coq Require Import Lia FunctionalExtensionality.
Local Open Scope list_scope.
Open Scope nat_scope.

(** ** Everything [k] times as large
    The sizes of fonts, the indentation, where columns and pages end, and what is drawn on
    pages by hand; not the spacing
    of lines (a ratio).  And other colours. *)
Section Sizes.
Variable k : scaling.
Definition scaled_style (s : @style QcNum) : @style QcNum :=
  mkStyle (s_font s) (option_map (fun z : Qc => (z * k)%Qc) (s_size s)) (s_bold s) (s_italic s) (option_map (recolour k) (s_color s)) (s_spacing s) (s_hyphens s).
Definition scaled_full (f : @full QcNum) : @full QcNum :=
  @mkFull QcNum (fs_font f) (fs_size f * k)%Qc (fs_bold f) (fs_italic f) (recolour k (fs_color f)) (fs_spacing f) (fs_hyphens f).
Fixpoint scaled_item (i : @item QcNum) : @item QcNum :=
  match i with IStr s => IStr s | ISpan st c => ISpan (scaled_style st) (map scaled_item c) end.
Definition scaled_para (p : @para QcNum) : @para QcNum :=
  @mkPara QcNum (map scaled_item (p_content p)) (scaled_style (p_style p)) (p_align p) (p_indent p * k)%Qc (p_orphans p) (p_optimal p).
Definition scaled_sides (m : @sides QcNum) : @sides QcNum := @mkSides QcNum (s_top m * k)%Qc (s_right m * k)%Qc (s_bottom m * k)%Qc (s_left m * k)%Qc.
Definition scaled_block (b : @block QcNum) : @block QcNum :=
  match b with BPara p => BPara (scaled_para p) | BRule c m => BRule (recolour k c) (scaled_sides m) end.
Definition scaled_xy (p : @xy QcNum) : @xy QcNum := @mkXY QcNum (px p * k)%Qc (py p * k)%Qc.
Definition scaled_column (c : @column QcNum) : @column QcNum := @mkColumn QcNum (scaled_xy (c_origin c)) (c_width c * k)%Qc (c_height c * k)%Qc.
Definition scaled_point (p : @xyarg QcNum) : @xyarg QcNum :=
  match p with PXY q => PXY (scaled_xy q) | PTup l => @PTup QcNum (map (fun x : Qc => (x * k)%Qc) l) | POther => POther end.
Definition scaled_drawing (d : @drawing QcNum) : @drawing QcNum :=
  match d with
  | DLine a b s => DLine (scaled_xy a) (scaled_xy b) (option_map (recolour k) s)
  | DRect o w h f s => @DRect QcNum (scaled_xy o) (w * k)%Qc (h * k)%Qc (option_map (recolour k) f) (option_map (recolour k) s)
  | DEllipse c w h f s => @DEllipse QcNum (scaled_xy c) (w * k)%Qc (h * k)%Qc (option_map (recolour k) f) (option_map (recolour k) s)
  | DCircle c r f s => @DCircle QcNum (scaled_xy c) (r * k)%Qc (option_map (recolour k) f) (option_map (recolour k) s)
  | DPolyline ps close f s => DPolyline (map scaled_point ps) close (option_map (recolour k) f) (option_map (recolour k) s)
  | DText loc c st a => DText (scaled_xy loc) (map scaled_item c) (scaled_style st) a
  end.
Definition scaled_page (p : page (@drawing QcNum)) : page (@drawing QcNum) :=
  mkPage (map scaled_drawing (pg_content p)) (scaled_xy (pg_size p)) (pg_rotate p) (map scaled_column (pg_columns p)).
(** what has been laid out: words with the sizes of their text, lines with their widths,
    blocks with their positions and heights *)
Definition scaled_tline (l : @tline QcNum) : @tline QcNum := @mkTLine QcNum (zcmd k (tl_cmd l)) (map (zwl k) (tl_words l)) (tl_width l * k)%Qc.
Definition scaled_shaped (s : @shaped QcNum) : @shaped QcNum :=
  match s with
  | SText ls lead a h => @SText QcNum (map scaled_tline ls) (lead * k)%Qc a (h * k)%Qc
  | SRule p q c h => @SRule QcNum (scaled_xy p) (scaled_xy q) (recolour k c) (h * k)%Qc
  end.
Definition scaled_fill (c : @colfill QcNum) : @colfill QcNum :=
  @mkCol QcNum (scaled_column (cf_box c)) (map (fun b => (scaled_xy (fst b), scaled_shaped (snd b))) (cf_blocks c)) (cf_free c * k)%Qc.
End Sizes.

Section Scale.
Context {ENV : Env QcNum}.
Variable k : scaling.
Hypothesis K : (0 < k)%Qc.
Hypothesis G : forall a b, rgb_eqb (recolour k a) (recolour k b) = rgb_eqb a b.
Notation psg := (@passage QcNum).
Notation zfull := (scaled_full k). Notation zstyle := (scaled_style k). Notation zcmd := (zcmd k). Notation zcol := (scaled_fill k).
Ltac zz := match goal with |- @eq _ ?a ?b => change (@eq Qc a b) end; cbn [nadd nsub nmul ndiv QcNum]; ring.
(** ** Styles *)
Lemma z_or f s : full_or (zfull f) (zstyle s) = zfull (full_or f s).
Proof. destruct f, s as [? [?|] ? ? [?|] ? ?]; reflexivity. Qed.
Lemma z_diff s f : style_diff (zstyle s) (zfull f) = map zcmd (style_diff s f).
Proof.
  unfold style_diff. rewrite !map_app.
  assert (D : differs (@neqb QcNum) (s_size (zstyle s)) (fs_size (zfull f)) = differs (@neqb QcNum) (s_size s) (fs_size f)).
  { cbn [scaled_style scaled_full s_size fs_size]. destruct (s_size s); cbn [option_map differs]; [rewrite z_eq by exact K|]; reflexivity. }
  rewrite D. cbn [scaled_style scaled_full s_size fs_size s_bold s_italic s_font s_color s_spacing s_hyphens fs_bold fs_italic fs_font fs_color fs_spacing fs_hyphens]. f_equal; [|f_equal; [|f_equal]].
  - destruct (_ || _)%bool; [|reflexivity]. destruct (s_size s); reflexivity.
  - destruct (s_color s); cbn [option_map]; [|reflexivity]. rewrite G. destruct (rgb_eqb _ _); reflexivity.
  - destruct (s_spacing s); [|reflexivity]. destruct (neqb _ _); reflexivity.
  - destruct (s_hyphens s); [|reflexivity]. destruct (_ =? _)%N; reflexivity.
Qed.
Lemma z_full_diff f g : full_diff (zfull f) (zfull g) = map zcmd (full_diff f g).
Proof.
  unfold full_diff. rewrite !map_app. cbn [scaled_full fs_size fs_bold fs_italic fs_font fs_color fs_spacing fs_hyphens]. rewrite z_eq by exact K. f_equal; [|f_equal; [|f_equal]].
  - destruct (negb _); reflexivity.
  - rewrite G. destruct (rgb_eqb _ _); reflexivity.
  - destruct (neqb _ _); reflexivity.
  - destruct (_ =? _)%N; reflexivity.
Qed.
Definition zraw (p : list (@command QcNum) * str) := (map zcmd (fst p), snd p).
Lemma z_flat_items c (IH : Forall (fun i => forall base todo, flatten_item (zfull base) (scaled_item k i) (map zcmd todo) = (map zraw (fst (flatten_item base i todo)), map zcmd (snd (flatten_item base i todo)))) c) :
  forall base todo, flatten_items (zfull base) (map (scaled_item k) c) (map zcmd todo) = (map zraw (fst (flatten_items base c todo)), map zcmd (snd (flatten_items base c todo))).
Proof.
  induction IH as [|i c I _ IH]; intros base todo; cbn [map flatten_items]; [reflexivity|]. rewrite I. destruct (flatten_item base i todo) as [p1 t1]. cbn [fst snd]. rewrite IH.
  destruct (flatten_items base c t1) as [p2 t2]. cbn [fst snd]. rewrite map_app. reflexivity.
Qed.
Lemma z_flat_item i : forall base todo, flatten_item (zfull base) (scaled_item k i) (map zcmd todo) = (map zraw (fst (flatten_item base i todo)), map zcmd (snd (flatten_item base i todo))).
Proof.
  induction i as [t|st c IH] using item_ind'; intros base todo; [reflexivity|]. cbn [scaled_item]. rewrite !flatten_item_span, z_or, z_diff, <- map_app, (z_flat_items c IH).
  destruct (flatten_items _ c _) as [ps t]. cbn [fst snd]. rewrite z_full_diff, map_app. reflexivity.
Qed.
Lemma z_flatten base st c : flatten (zfull base) (zstyle st) (map (scaled_item k) c) = map (zpsg k) (flatten base st c).
Proof.
  unfold flatten, flatten_raw. assert (E := z_flat_item (ISpan st c) base []). cbn [map scaled_item] in E. rewrite E. cbn [fst].
  unfold passages_of. rewrite !map_map. apply map_ext. intros [cs t]. unfold zraw, zpsg. cbn [fst snd]. rewrite z_squash. reflexivity.
Qed.
(** ** Paragraphs *)
Lemma z_end ls : text_end_state (map (scaled_tline k) ls) = option_map (zst k) (text_end_state ls).
Proof.
  unfold text_end_state, text_words. assert (E : flat_map tl_words (map (scaled_tline k) ls) = map (zwl k) (flat_map tl_words ls)).
  { induction ls as [|l ls IH]; [reflexivity|]. cbn [map flat_map]. rewrite IH, map_app. reflexivity. }
  rewrite E, <- map_rev. destruct (rev _) as [|w r]; [reflexivity|]. cbn [map option_map]. rewrite z_wl_state. reflexivity.
Qed.
Lemma z_after chunks : forall st, states_after (map (map (scaled_tline k)) chunks) (zst k st) = zst k (states_after chunks st).
Proof.
  unfold states_after. induction chunks as [|ls chunks IH]; intros st; cbn [map fold_left]; [reflexivity|]. rewrite z_end. destruct (text_end_state ls); cbn [option_map]; apply IH.
Qed.
Definition zfills (cs : nat -> @colfill QcNum) : nat -> @colfill QcNum := fun i => zcol (cs i).
Lemma z_height s : sh_height (scaled_shaped k s) = (sh_height s * k)%Qc. Proof. destruct s; reflexivity. Qed.
Lemma z_add_shape c s : cf_add (zcol c) (scaled_shaped k s) = zcol (cf_add c s).
Proof.
  unfold cf_add, scaled_fill. cbn [cf_box cf_blocks cf_free]. rewrite map_app, z_height, z_sub. cbn [map fst snd]. do 5 f_equal.
  unfold cf_cursor, scaled_xy, add_y. cbn [cf_box cf_free scaled_column c_origin scaled_xy px py]. f_equal. apply z_add.
Qed.
Lemma z_chunks ss : forall cs, add_chunks (zfills cs) (map (scaled_shaped k) ss) = map zcol (add_chunks cs ss).
Proof. induction ss as [|s ss IH]; intros cs; cbn [map add_chunks]; [reflexivity|]. unfold zfills at 1. rewrite z_add_shape. f_equal. exact (IH (sdrop 1 cs)). Qed.
Lemma z_indent ws a : indent_first (map (zwl k) ws) (a * k)%Qc = rmap (map (zwl k)) (@indent_first QcNum ws a).
Proof. destruct ws as [|w r]; cbn [map indent_first]; [reflexivity|]. rewrite z_wl_indent by exact K. destruct (@wl_indent QcNum w a); reflexivity. Qed.
Lemma z_shape fuel p ws cols ae (lead : Qc) :
  shape fuel (scaled_para k p) (map (zwl k) ws) (zcols k cols) ae (lead * k)%Qc = rmap (map (map (scaled_tline k))) (@shape QcNum ENV fuel p ws cols ae lead).
Proof.
  unfold shape. cbn [scaled_para p_optimal p_align p_orphans]. destruct (p_optimal p) as [[tolerance P]|].
  - rewrite z_opt by exact K. match goal with |- context [rmap (zols k) ?x] => destruct x as [chunks|e] end; [|reflexivity]. unfold rmap. cbn [bind]. f_equal.
    unfold zols. rewrite !map_map. apply map_ext. intros l. rewrite !map_map. reflexivity.
  - rewrite z_ff by exact K. match goal with |- context [rmap (zlines k) ?x] => destruct x as [chunks|e] end; [|reflexivity]. unfold rmap. cbn [bind]. f_equal.
    unfold zlines. rewrite !map_map. apply map_ext. intros l. rewrite !map_map. reflexivity.
Qed.
Lemma z_fill fuel p txt cs st lead :
  fill_paragraph fuel (scaled_para k p) (map (zpsg k) txt) (zfills cs) (zst k st) (lead * k)%Qc
  = rmap (fun x => (map zcol (fst (fst x)), zst k (snd (fst x)), snd x)) (@fill_paragraph QcNum ENV fuel p txt cs st lead).
Proof.
  unfold fill_paragraph. rewrite z_into by exact K. destruct (into_words txt st) as [[[cmd ws] ex]|e]; [|reflexivity]. unfold rmap at 1. cbn [bind fst snd].
  change (p_indent (scaled_para k p)) with (p_indent p * k)%Qc. rewrite z_indent. destruct (indent_first ws (p_indent p)) as [ws'|e]; [|reflexivity]. unfold rmap at 1. cbn [bind].
  assert (AE : match cf_blocks (zfills cs 0) with [] => false | _ => true end = match cf_blocks (cs 0) with [] => false | _ => true end).
  { unfold zfills. cbn [scaled_fill cf_blocks]. destruct (cf_blocks (cs 0)); reflexivity. }
  rewrite AE.
  change (fun i => (c_width (cf_box (zfills cs i)), cf_free (zfills cs i))) with (zcols k (fun i => (c_width (cf_box (cs i)), cf_free (cs i)))).
  rewrite z_shape. match goal with |- context [rmap (map (map (scaled_tline k))) ?x] => destruct x as [chunks|e] end; [|reflexivity]. unfold rmap. cbn [bind fst snd].
  rewrite z_apply, z_after. do 3 f_equal. rewrite <- z_chunks. f_equal. rewrite !map_map. apply map_ext. intros ls. unfold chunk. cbn [scaled_shaped scaled_para p_align].
  rewrite !map_length, z_mul. reflexivity.
Qed.
Lemma z_scons c cs : scons (zcol c) (zfills cs) = zfills (scons c cs).
Proof. apply functional_extensionality. intros [|i]; reflexivity. Qed.
Lemma z_para fuel p : forall gs cs st lead,
  para_loop fuel (scaled_para k p) (map (map (zpsg k)) gs) (zfills cs) (zst k st) (lead * k)%Qc = rmap (map zcol) (@para_loop QcNum ENV fuel p gs cs st lead).
Proof.
  induction gs as [|g gs IH]; intros cs st lead; cbn [map para_loop]; [reflexivity|]. rewrite (z_fill fuel p g cs st lead).
  destruct (@fill_paragraph QcNum ENV fuel p g cs st lead) as [[[dn st'] ex]|e]; [|reflexivity]. unfold rmap at 1. cbn [bind fst snd]. rewrite <- map_rev.
  destruct (rev dn) as [|col fl]; cbn [map]; [reflexivity|]. rewrite <- map_rev, map_length. destruct ex.
  - change (sdrop (List.length dn) (zfills cs)) with (zfills (sdrop (List.length dn) cs)). rewrite z_scons, IH.
    destruct (@para_loop QcNum ENV fuel p gs _ st' lead) as [out|e]; [|reflexivity]. unfold rmap. cbn [bind]. rewrite map_app. reflexivity.
  - unfold rmap. cbn [bind]. rewrite map_app. reflexivity.
Qed.
Lemma z_para_columns fuel p base cs : para_columns fuel (scaled_para k p) (zfull base) (zfills cs) = rmap (map zcol) (para_columns fuel p base cs).
Proof.
  unfold para_columns. cbn [scaled_para p_style p_content]. rewrite z_or, z_flatten, z_splitlines.
  change (as_state (zfull (full_or base (p_style p)))) with (zst k (as_state (full_or base (p_style p)))). rewrite z_max_lead by exact K. apply z_para.
Qed.
Lemma z_rule c m cs : rule_columns (recolour k c) (scaled_sides k m) (zfills cs) = map zcol (rule_columns c m cs).
Proof.
  unfold rule_columns. rewrite map_app. cbn [map]. set (col := cs 0). change (zfills cs 0) with (zcol col).
  cbn [scaled_sides s_top s_bottom s_left s_right scaled_fill cf_free cf_box scaled_column c_origin c_width scaled_xy px py]. fold (scaled_fill k col).
  rewrite !z_add, !z_sub. rewrite z_lt by exact K. f_equal; [destruct (nltb _ _); reflexivity|]. rewrite <- z_add_shape. reflexivity.
Qed.
Lemma z_block fuel b base cs : block_columns fuel (scaled_block k b) (zfull base) (zfills cs) = rmap (map zcol) (block_columns fuel b base cs).
Proof. destruct b as [p|c m]; cbn [scaled_block block_columns]; [apply z_para_columns|]. rewrite z_rule. reflexivity. Qed.
(** ** Pages *)
Definition zpf (p : @pagefill QcNum) : @pagefill QcNum := mkPF (scaled_page k (pf_base p)) (map zcol (pf_todo p)) (map zcol (pf_done p)).
Definition zdoc (d : nat -> @pagefill QcNum) : nat -> @pagefill QcNum := fun i => zpf (d i).
Lemma z_nocol : zcol no_col = no_col.
Proof. unfold no_col, scaled_fill, scaled_column, scaled_xy. cbn [cf_box cf_blocks cf_free c_origin c_width c_height px py map]. rewrite <- (z_0 k). reflexivity. Qed.
Lemma z_todo d : flat_todo (zdoc d) = zfills (flat_todo d).
Proof.
  apply functional_extensionality. intros i. unfold flat_todo, zfills.
  assert (E : concat (map (fun j => pf_todo (zdoc d j)) (seq 0 (S i))) = map zcol (concat (map (fun j => pf_todo (d j)) (seq 0 (S i))))).
  { rewrite concat_map, map_map. reflexivity. }
  rewrite E, <- z_nocol at 1. rewrite map_nth. reflexivity.
Qed.
Definition zfilled_pages (x : list (@pagefill QcNum) * (nat -> @pagefill QcNum)) := (map zpf (fst x), zdoc (snd x)).
Lemma z_dscons p d : scons (zpf p) (zdoc d) = zdoc (scons p d).
Proof. apply functional_extensionality. intros [|i]; reflexivity. Qed.
Lemma z_fill_loop f : forall filled d, fill_loop f (map zcol filled) (zdoc d) = rmap zfilled_pages (fill_loop f filled d).
Proof.
  induction f as [|f IH]; intros filled d; cbn [fill_loop]; [reflexivity|]. change (zdoc d 0) with (zpf (d 0)). cbn [zpf pf_todo pf_base pf_done].
  rewrite !map_length, firstn_map, !skipn_map, map_length.
  destruct (skipn (List.length (pf_todo (d 0))) filled) as [|c r]; cbn [map].
  - unfold pf_reopen. cbn [pf_done pf_base pf_todo]. rewrite <- map_app, <- map_rev. destruct (rev _) as [|c l]; cbn [map]; [reflexivity|]. unfold rmap. cbn [bind].
    change (sdrop 1 (zdoc d)) with (zdoc (sdrop 1 d)). unfold zfilled_pages. cbn [fst snd map]. rewrite <- z_dscons. unfold zpf. cbn [pf_base pf_todo pf_done map]. rewrite map_rev. reflexivity.
  - change (sdrop 1 (zdoc d)) with (zdoc (sdrop 1 d)). change (zcol c :: map zcol r) with (map zcol (c :: r)). rewrite IH. destruct (fill_loop f (c :: r) (sdrop 1 d)) as [[ps d']|e]; [|reflexivity].
    unfold rmap, zfilled_pages, zpf. cbn [bind fst snd map pf_base pf_todo pf_done]. rewrite map_app. reflexivity.
Qed.
Lemma z_fill_into cols d : fill_into (map zcol cols) (zdoc d) = rmap zfilled_pages (fill_into cols d).
Proof. unfold fill_into. destruct cols as [|c r]; [reflexivity|]. rewrite <- z_fill_loop, map_length. reflexivity. Qed.
Lemma z_auto fuel bs base : forall d, auto_loop fuel (map (scaled_block k) bs) (zfull base) (zdoc d) = rmap zfilled_pages (auto_loop fuel bs base d).
Proof.
  induction bs as [|b bs IH]; intros d; cbn [map auto_loop]; [reflexivity|]. rewrite z_todo, z_block.
  destruct (block_columns fuel b base (flat_todo d)) as [cols|e]; [|reflexivity]. unfold rmap at 1. cbn [bind]. rewrite z_fill_into.
  destruct (fill_into cols d) as [[ps d']|e]; [|reflexivity]. unfold rmap at 1. cbn [bind zfilled_pages fst snd]. rewrite IH.
  destruct (auto_loop fuel bs base d') as [[qs d2]|e]; [|reflexivity]. unfold rmap, zfilled_pages. cbn [bind fst snd]. rewrite map_app. reflexivity.
Qed.
Lemma z_pages fuel bs template base n :
  auto_pages fuel (map (scaled_block k) bs) (fun i => scaled_page k (template i)) (zfull base) n
  = rmap (map (fun x => (scaled_page k (fst x), map zcol (snd x)))) (auto_pages fuel bs template base n).
Proof.
  unfold auto_pages.
  assert (E : (fun i : nat => pf_new (scaled_page k (template (n + Z.of_nat i)%Z))) = zdoc (fun i => pf_new (template (n + Z.of_nat i)%Z))).
  { apply functional_extensionality. intros i. unfold zdoc, zpf, pf_new. cbn [pf_base pf_todo pf_done scaled_page pg_columns map]. rewrite !map_map. reflexivity. }
  rewrite E, (z_auto fuel bs base). destruct (auto_loop fuel bs base _) as [[ps d]|e]; [|reflexivity]. unfold rmap. cbn [bind zfilled_pages fst snd].
  rewrite map_app, !map_map. cbn [map fst snd zdoc zpf pf_base pf_done pf_todo]. rewrite map_app. reflexivity.
Qed.
End Scale.
