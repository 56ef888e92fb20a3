(** * ScaleLines: first-fit lines in another size. *)
From Coq Require Import QArith Qcanon Qround.
From Verif Require Import Base Gfmt Num Fonts State Style Words Parse Show Firstfit ScaleWords ScaleText.
From Coq Require Import Lia FunctionalExtensionality.
Local Open Scope list_scope.
Open Scope nat_scope.

Section Scale.
Context {ENV : Env QcNum}.
Variable k : scaling.
Hypothesis K : (0 < k)%Qc.
Notation zwl := (zwl k).
Ltac zz := match goal with |- @eq _ ?a ?b => change (@eq Qc a b) end; cbn [nadd nsub nmul ndiv QcNum]; ring.
Definition zline (l : @line QcNum) : @line QcNum := @mkLine QcNum (map zwl (l_words l)) (l_width l * k)%Qc (l_space l * k)%Qc.
Lemma z_sub (a b : Qc) : @nsub QcNum (a * k)%Qc (b * k)%Qc = (@nsub QcNum a b * k)%Qc. Proof. zz. Qed.
Lemma z_add (a b : Qc) : @nadd QcNum (a * k)%Qc (b * k)%Qc = (@nadd QcNum a b * k)%Qc. Proof. zz. Qed.
Lemma z_mul (a b : Qc) : @nmul QcNum a (b * k)%Qc = (@nmul QcNum a b * k)%Qc. Proof. zz. Qed.
Lemma z_fit ws : forall space content, fit_words (map zwl ws) (space * k)%Qc (map zwl content)
  = (let '(c, s, x) := @fit_words QcNum ws space content in (map zwl c, (s * k)%Qc, option_map (fun y => (zwl (fst y), map zwl (snd y))) x)).
Proof.
  induction ws as [|w ws IH]; intros space content; cbn [map fit_words]; [reflexivity|]. rewrite z_wl_pruned_width, z_lt by exact K. destruct (nltb _ _); [reflexivity|].
  rewrite z_wl_width, z_sub, <- IH, map_app. reflexivity.
Qed.
Definition ztaken (x : option (list (@wordlike QcNum)) * @line QcNum) := (option_map (map zwl) (fst x), zline (snd x)).
Lemma z_removelast (l : list (@wordlike QcNum)) : removelast (map zwl l) = map zwl (removelast l).
Proof. induction l as [|a [|b l] IH]; [reflexivity|reflexivity|]. cbn [map removelast] in *. rewrite IH. reflexivity. Qed.
Lemma z_take_line ws width : take_line (map zwl ws) (width * k)%Qc = rmap ztaken (@take_line QcNum ENV ws width).
Proof.
  unfold take_line. assert (F := z_fit ws width []). cbn [map] in F. rewrite F. destruct (@fit_words QcNum ws width []) as [[c s] [[w r]|]]; cbn [option_map fst snd].
  2:{ unfold rmap, ztaken, zline. cbn [bind fst snd option_map l_words l_width l_space]. rewrite z_sub, <- (z_0 k). reflexivity. }
  rewrite z_wl_hyphenate by exact K. destruct (@wl_hyphenate QcNum ENV w s) as [[[lw|] dg]|e]; unfold rmap at 1, zwpair; cbn [bind fst snd option_map]; [| |reflexivity].
  - unfold rmap, ztaken, zline. cbn [bind fst snd option_map l_words l_width l_space map]. rewrite z_wl_width, !z_sub, map_app. reflexivity.
  - rewrite <- map_rev. destruct (rev c) as [|x rc]; cbn [map].
    + rewrite z_wl_minimal. destruct (wl_minimal dg) as [x [y|]]; cbn [fst snd option_map].
      * unfold rmap, ztaken, zline. cbn [bind fst snd option_map l_words l_width l_space map]. rewrite z_wl_width, !z_sub. reflexivity.
      * destruct r as [|w2 r]; cbn [map]; unfold rmap, ztaken, zline; cbn [bind fst snd option_map l_words l_width l_space map]; rewrite z_wl_width.
        -- rewrite <- (z_0 k). reflexivity.
        -- rewrite !z_sub. reflexivity.
    + rewrite z_wl_prunable, z_truthy by exact K. destruct (ntruthy _).
      * unfold rmap, ztaken, zline. cbn [bind fst snd option_map l_words l_width l_space map]. rewrite z_add, z_sub, z_removelast, z_wl_pruned, map_app. reflexivity.
      * unfold rmap, ztaken, zline. cbn [bind fst snd option_map l_words l_width l_space map]. rewrite z_sub. reflexivity.
Qed.
Definition zfilled (b : @filled QcNum) : @filled QcNum := mkFilled (option_map (map zwl) (b_rest b)) (map zline (b_lines b)) (option_map (map zwl) (b_undo b)).
Lemma z_take_lines n : forall q p width lines, take_lines n (option_map (map zwl) q) (option_map (map zwl) p) (width * k)%Qc (map zline lines)
  = rmap zfilled (@take_lines QcNum ENV n q p width lines).
Proof.
  induction n as [|n IH]; intros q p width lines; cbn [take_lines]; [reflexivity|]. destruct q as [ws|]; cbn [option_map]; [|reflexivity].
  rewrite z_take_line. destruct (@take_line QcNum ENV ws width) as [[q2 l]|e]; [|reflexivity]. unfold rmap at 1. cbn [bind ztaken fst snd].
  rewrite <- IH, map_app. reflexivity.
Qed.
Definition zdim (c : @num QcNum * @num QcNum) : @num QcNum * @num QcNum := ((fst c * k)%Qc, (snd c * k)%Qc).
Lemma z_box_taken q (col : @num QcNum * @num QcNum) ae lead : take_box (option_map (map zwl) q) (zdim col) ae (lead * k)%Qc = rmap zfilled (@take_box QcNum ENV q col ae lead).
Proof.
  unfold take_box. rewrite (z_0 k) at 1. rewrite z_eq by exact K. destruct (@neqb QcNum lead n0); [reflexivity|].
  assert (M : @max_line_count QcNum (snd (zdim col)) (lead * k)%Qc ae = @max_line_count QcNum (snd col) lead ae).
  { unfold max_line_count. cbn [nfloordiv QcNum zdim fst snd]. rewrite z_ratio by exact K. reflexivity. }
  rewrite M. cbn [zdim fst]. exact (z_take_lines _ q q (fst col) []).
Qed.
Definition zcols (cols : nat -> @num QcNum * @num QcNum) : nat -> @num QcNum * @num QcNum := fun i => zdim (cols i).
Definition zlines (x : list (list (@line QcNum))) := map (map zline) x.
Lemma z_shape_simple f : forall ws cols ae lead, shape_simple f (option_map (map zwl) ws) (zcols cols) ae (lead * k)%Qc = rmap zlines (@shape_simple QcNum ENV f ws cols ae lead).
Proof.
  induction f as [|f IH]; intros ws cols ae lead; cbn [shape_simple]; [reflexivity|]. unfold zcols at 1. rewrite z_box_taken.
  destruct (@take_box QcNum ENV ws (cols 0) ae lead) as [b|e]; [|reflexivity]. unfold rmap at 1. cbn [bind zfilled b_rest b_lines]. destruct (b_rest b) as [ws'|]; cbn [option_map]; [|reflexivity].
  change (fun i => zcols cols (S i)) with (zcols (fun i => cols (S i))). change (Some (map zwl ws')) with (option_map (map zwl) (Some ws')). rewrite IH.
  destruct (@shape_simple QcNum ENV f (Some ws') _ false lead) as [r|e]; reflexivity.
Qed.
Lemma z_removelast_lines (l : list (@line QcNum)) : removelast (map zline l) = map zline (removelast l).
Proof. induction l as [|a [|b l] IH]; [reflexivity|reflexivity|]. cbn [map removelast] in *. rewrite IH. reflexivity. Qed.
Lemma z_orphan f : forall ws lines undo cols lead, orphan_loop f (option_map (map zwl) ws) (map zline lines) (option_map (map zwl) undo) (zcols cols) (lead * k)%Qc
  = rmap zlines (@orphan_loop QcNum ENV f ws lines undo cols lead).
Proof.
  induction f as [|f IH]; intros ws lines undo cols lead; cbn [orphan_loop]; [reflexivity|]. change (zcols cols 0) with (zdim (cols 0)). rewrite z_box_taken.
  destruct (@take_box QcNum ENV ws (cols 0) false lead) as [b|e]; [|reflexivity]. unfold rmap at 1. cbn [bind zfilled b_rest b_lines b_undo]. destruct (b_rest b) as [ws'|]; cbn [option_map].
  - change (fun i => zcols cols (S i)) with (zcols (fun i => cols (S i))). change (Some (map zwl ws')) with (option_map (map zwl) (Some ws')). rewrite IH.
    destruct (@orphan_loop QcNum ENV f (Some ws') _ _ _ lead) as [r|e]; reflexivity.
  - rewrite !map_length. replace (@nmul QcNum (lead * k)%Qc (nZ 2)) with (@nmul QcNum lead (nZ 2) * k)%Qc by zz. cbn [zdim snd]. rewrite z_le by exact K.
    destruct (_ && _ && _)%bool; [|reflexivity]. destruct undo as [u|]; cbn [option_map]; [|reflexivity].
    change (Some (map zwl u)) with (option_map (map zwl) (Some u)). fold (zdim (cols 0)). rewrite z_box_taken.
    destruct (@take_box QcNum ENV (Some u) (cols 0) false lead) as [n|e]; [|reflexivity]. unfold rmap at 1. cbn [bind zfilled b_rest b_lines b_undo]. rewrite map_length.
    destruct (_ =? 1); [reflexivity|]. rewrite z_removelast_lines. apply IH.
Qed.
Lemma z_shape_orphans f ws cols ae lead : shape_orphans f (option_map (map zwl) ws) (zcols cols) ae (lead * k)%Qc = rmap zlines (@shape_orphans QcNum ENV f ws cols ae lead).
Proof.
  unfold shape_orphans. change (zcols cols 0) with (zdim (cols 0)). rewrite z_box_taken.
  destruct (@take_box QcNum ENV ws (cols 0) ae lead) as [b|e]; [|reflexivity]. unfold rmap at 1. cbn [bind zfilled b_rest b_lines b_undo]. destruct (b_rest b) as [ws'|]; cbn [option_map]; [|reflexivity].
  rewrite map_length. change (fun i => zcols cols (S i)) with (zcols (fun i => cols (S i))). destruct (_ && _)%bool.
  - exact (z_orphan f (b_undo b) [] (b_undo b) _ lead).
  - exact (z_orphan f (Some ws') (b_lines b) (b_undo b) _ lead).
Qed.
Lemma z_tails ws : tail_sizes (map zwl ws) = (tail_sizes ws * k)%Qc.
Proof.
  unfold tail_sizes. rewrite <- z_sum. f_equal. induction ws as [|w ws IH]; [reflexivity|]. cbn [map filter]. rewrite z_wl_tail.
  destruct (wl_tail w); cbn [option_map map]; [|exact IH]. rewrite z_wl_state, IH. reflexivity.
Qed.
Lemma z_mapM {A B} (f : A -> res B) (g : A -> A) (h : B -> B) l : (forall x, f (g x) = rmap h (f x)) -> mapM f (map g l) = rmap (map h) (mapM f l).
Proof.
  intros H. induction l as [|x l IH]; [reflexivity|]. cbn [map mapM]. rewrite H. destruct (f x) as [y|e]; [|reflexivity]. unfold rmap at 1. cbn [bind]. rewrite IH. destruct (mapM f l); reflexivity.
Qed.
Lemma z_justify l : justify (zline l) = rmap zline (justify l).
Proof.
  unfold justify. cbn [zline l_space l_words]. rewrite z_tails, z_pdiv by exact K. destruct (@pdiv QcNum (l_space l) (tail_sizes (l_words l))) as [per|e]; [|reflexivity].
  rewrite (z_mapM (fun w => wl_extend_tail w (nmul per (st_size (wl_state w)))) zwl zwl).
  - destruct (mapM _ (l_words l)) as [ws|e]; [|reflexivity]. unfold rmap. cbn [bind]. unfold zline. cbn [l_words l_width l_space]. rewrite z_add, <- (z_0 k). reflexivity.
  - intros w. rewrite z_wl_state. cbn [zst st_size]. change (st_size (zst k (wl_state w))) with (st_size (wl_state w) * k)%Qc. rewrite z_mul. apply z_wl_extend. exact K.
Qed.
Lemma z_ff f ws cols ae lead avoid j : ff_shape f (map zwl ws) (zcols cols) ae (lead * k)%Qc avoid j = rmap zlines (@ff_shape QcNum ENV f ws cols ae lead avoid j).
Proof.
  unfold ff_shape. assert (S1 := z_shape_simple f (Some ws) cols ae lead). assert (S2 := z_shape_orphans f (Some ws) cols ae lead). cbn [option_map] in *.
  destruct avoid; [rewrite S2; destruct (@shape_orphans QcNum ENV f (Some ws) cols ae lead) as [cs|e]|rewrite S1; destruct (@shape_simple QcNum ENV f (Some ws) cols ae lead) as [cs|e]]; try reflexivity;
    unfold rmap at 1; cbn [bind]; (destruct j; [|reflexivity]); unfold zlines; rewrite (z_mapM (mapM justify) (map zline) (map zline)); try reflexivity; intros x; apply z_mapM, z_justify.
Qed.
End Scale.
