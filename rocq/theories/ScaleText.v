(** * ScaleText: parsing and first-fit lines in another size. *)
From Coq Require Import QArith Qcanon Qround.
From Verif Require Import Base Gfmt Num Fonts State Style Words Parse Show Firstfit ScaleWords.
From Coq Require Import Lia FunctionalExtensionality.
Local Open Scope list_scope.
Open Scope nat_scope.

Section Scale.
Context {ENV : Env QcNum}.
Variable k : scaling.
Hypothesis K : (0 < k)%Qc.
Notation psg := (@passage QcNum).
Notation zst := (zst k). Notation zcmd := (zcmd k). Notation zword := (zword k). Notation zwl := (zwl k). Notation zbox := (zbox k). Notation zslug := (zslug k). Notation zseg := (zseg k).
Ltac zz := match goal with |- @eq _ ?a ?b => change (@eq Qc a b) end; cbn [nadd nsub nmul ndiv QcNum]; unfold Qcdiv; ring.
(** ** Words with commands *)
Lemma z_with w c : with_cmd (zwl w) (zcmd c) = zwl (with_cmd w c). Proof. destruct c; reflexivity. Qed.
Lemma z_wl_state w : wl_state (zwl w) = zst (wl_state w).
Proof. induction w as [b|w|w IH c]; cbn [ScaleWords.zwl wl_state]; [apply z_box_state|reflexivity|]. rewrite IH. apply z_apply. Qed.
Lemma z_wl_width w : wl_width (zwl w) = (wl_width w * k)%Qc.
Proof. induction w as [b|w|w IH c]; cbn [ScaleWords.zwl wl_width]; [apply z_box_width|apply z_word_width|exact IH]. Qed.
Lemma z_wl_pruned_width w : wl_pruned_width (zwl w) = (wl_pruned_width w * k)%Qc.
Proof. induction w as [b|w|w IH c]; cbn [ScaleWords.zwl wl_pruned_width]; [apply z_box_width|apply z_pruned_width|exact IH]. Qed.
Lemma z_wl_prunable w : wl_prunable (zwl w) = (wl_prunable w * k)%Qc.
Proof. induction w as [b|w|w IH c]; cbn [ScaleWords.zwl wl_prunable]; [apply z_0|apply z_prunable|exact IH]. Qed.
Lemma z_wl_pruned w : wl_pruned (zwl w) = zwl (wl_pruned w).
Proof. induction w as [b|w|w IH c]; cbn [ScaleWords.zwl wl_pruned]; [reflexivity|rewrite z_word_pruned; reflexivity|rewrite IH; reflexivity]. Qed.
Lemma z_wl_tail w : wl_tail (zwl w) = option_map (zts k) (wl_tail w).
Proof. induction w as [b|w|w IH c]; cbn [ScaleWords.zwl wl_tail]; [reflexivity|reflexivity|exact IH]. Qed.
Definition zwpair (p : option (@wordlike QcNum) * @wordlike QcNum) := (option_map zwl (fst p), zwl (snd p)).
Lemma z_wl_hyphenate w space : wl_hyphenate (zwl w) (space * k)%Qc = rmap zwpair (@wl_hyphenate QcNum ENV w space).
Proof.
  induction w as [b|w|w IH c]; cbn [ScaleWords.zwl wl_hyphenate]; [reflexivity| |].
  - rewrite z_word_hyphenate by exact K. destruct (@word_hyphenate QcNum ENV w space) as [[[x|] y]|e]; reflexivity.
  - rewrite IH. destruct (@wl_hyphenate QcNum ENV w space) as [[x y]|e]; [|reflexivity]. unfold rmap, zwpair. cbn [bind fst snd]. rewrite z_with. reflexivity.
Qed.
Lemma z_wl_minimal w : wl_minimal (zwl w) = (zwl (fst (wl_minimal w)), option_map zwl (snd (wl_minimal w))).
Proof.
  induction w as [b|w|w IH c]; cbn [ScaleWords.zwl wl_minimal]; [reflexivity| |].
  - rewrite z_word_minimal. destruct (word_minimal w) as [a [b|]]; reflexivity.
  - rewrite IH. destruct (wl_minimal w) as [a [b|]]; cbn [fst snd option_map]; rewrite z_with; reflexivity.
Qed.
Lemma z_wl_indent w a : wl_indent (zwl w) (a * k)%Qc = rmap zwl (@wl_indent QcNum w a).
Proof.
  induction w as [b|w|w IH c]; cbn [ScaleWords.zwl wl_indent].
  - rewrite z_box_indent by exact K. destruct (@box_indent QcNum b a); reflexivity.
  - rewrite z_word_indent by exact K. destruct (@word_indent QcNum w a); reflexivity.
  - rewrite z_truthy by exact K. destruct (@ntruthy QcNum a); [|reflexivity]. rewrite IH. destruct (@wl_indent QcNum w a); reflexivity.
Qed.
Lemma z_wl_extend w a : wl_extend_tail (zwl w) (a * k)%Qc = rmap zwl (@wl_extend_tail QcNum w a).
Proof.
  induction w as [b|w|w IH c]; cbn [ScaleWords.zwl wl_extend_tail]; [reflexivity| |].
  - rewrite z_word_extend by exact K. destruct (@word_extend_tail QcNum w a); reflexivity.
  - rewrite z_wl_tail. destruct (wl_tail w); cbn [option_map]; [|reflexivity]. rewrite z_truthy by exact K. destruct (@ntruthy QcNum a); [|reflexivity].
    rewrite IH. destruct (@wl_extend_tail QcNum w a); reflexivity.
Qed.
(** ** Parsing *)
Definition zpsg (p : psg) : psg := (zcmd (fst p), snd p).
Definition zlast (x : str + @word QcNum) := match x with inl t => inl t | inr w => inr (zword w) end.
Lemma z_simple f : forall t st p, simple_words f t (zst st) p = rmap (fun x => (map zword (fst x), zlast (snd x))) (simple_words f t st p).
Proof.
  induction f as [|f IH]; intros t st p; cbn [simple_words]; [reflexivity|]. destruct (split_word t) as [[w r]|]; [|reflexivity].
  rewrite z_word by exact K. destruct (word_new w st p) as [x|e]; cbn [bind rmap]; [|reflexivity]. destruct r as [|c r]; [reflexivity|].
  unfold rmap at 1. cbn [bind]. rewrite IH. destruct (simple_words f (c :: r) st _) as [[ws l]|e]; reflexivity.
Qed.
Lemma z_take it : take_parts (map zpsg it) = (map (fun p => (zcmd (fst p), snd p)) (fst (take_parts it)), option_map (fun x => (fst x, map zpsg (snd x))) (snd (take_parts it))).
Proof.
  induction it as [|[c t] it IH]; cbn [map take_parts]; [reflexivity|]. unfold zpsg at 1. cbn [fst snd]. destruct (split_word t) as [[w r]|]; [reflexivity|].
  rewrite IH. destruct (take_parts it) as [ps x]. reflexivity.
Qed.
Lemma z_cut_parts ps : cut_parts (map zpsg ps) = map zpsg (cut_parts ps).
Proof. unfold cut_parts. rewrite <- map_rev. change (@rev (@command QcNum * str) ps) with (@rev psg ps). destruct (@rev psg ps) as [|[c w] r]; [reflexivity|]. cbn [map]. unfold zpsg at 1. cbn [fst snd]. rewrite map_rev. reflexivity. Qed.
Lemma z_segments ps : forall seg p st cmds, segments (map zpsg ps) (zslug seg) p (zst st) (map zcmd cmds)
  = (let '(l, q, s) := segments ps seg p st cmds in (map zseg l, q, zst s)).
Proof.
  induction ps as [|[c t] ps IH]; intros seg p st cmds; cbn [map segments].
  - rewrite z_squash. reflexivity.
  - unfold zpsg at 1. cbn [fst snd]. rewrite z_apply, z_kerns by exact K. destruct t as [|d t].
    + rewrite <- IH, map_app. reflexivity.
    + rewrite z_slug. change (@nil (@command QcNum)) with (map zcmd []). rewrite IH. cbn [map].
      destruct (segments ps (slug_new (d :: t) (apply c st) _) _ _ []) as [[l q] s]. assert (SQ : squash (map zcmd cmds ++ [zcmd c]) = zcmd (squash (cmds ++ [c]))) by (rewrite <- z_squash, map_app; reflexivity). rewrite SQ. reflexivity.
Qed.
Lemma z_complete it h st : complete_word (map zpsg it) h (zst st)
  = rmap (fun x => (zword (fst x), option_map (fun y => (fst y, map zpsg (snd y))) (snd x))) (complete_word it h st).
Proof.
  unfold complete_word. rewrite z_take. destruct (take_parts it) as [ps nx]. cbn [fst snd].
  change (map (fun p => (zcmd (fst p), snd p)) ps) with (map zpsg ps).
  destruct ps as [|p0 ps0]; cbn [map].
  { rewrite z_word by exact K. destruct (word_new h st None); reflexivity. }
  change (zpsg p0 :: map zpsg ps0) with (map zpsg (p0 :: ps0)). set (ps := p0 :: ps0).
  assert (SP : snd (@List.last (@command QcNum * str) (map zpsg ps) (NoOp, [])) = snd (@List.last (@command QcNum * str) ps (NoOp, []))).
  { subst ps. clear. revert p0. induction ps0 as [|p1 ps IH]; intros p0; [reflexivity|]. exact (IH p1). }
  rewrite SP. rewrite z_slug.
  assert (PP : match option_map (fun x : str * list psg => (fst x, map zpsg (snd x))) nx with Some _ => cut_parts (map zpsg ps) | None => map zpsg ps end
     = map zpsg (match nx with Some _ => cut_parts ps | None => ps end)) by (destruct nx; cbn [option_map]; [apply z_cut_parts|reflexivity]).
  rewrite PP. change (@nil (@command QcNum)) with (map zcmd []). rewrite z_segments. cbn [map]. change (slug_last (zslug (slug_new h st None))) with (slug_last (slug_new h st None)).
  destruct (segments _ _ _ st []) as [[l q] s]. cbn [rmap bind]. unfold rmap. cbn [bind fst snd]. do 2 f_equal. unfold ScaleWords.zword. cbn [w_boxes w_tail w_state map ScaleWords.zbox]. f_equal.
  destruct nx as [[? ?]|]; cbn [option_map]; [|reflexivity]. destruct (ends_with_space _); [|reflexivity]. rewrite z_ts_new. reflexivity.
Qed.
Lemma z_words_map ws : map (@WWord QcNum) (map zword ws) = map zwl (map WWord ws).
Proof. rewrite !map_map. reflexivity. Qed.
Lemma z_parse f : forall it st t, parse_loop f (map zpsg it) (zst st) t = rmap (fun x => (map zwl (fst x), snd x)) (parse_loop f it st t).
Proof.
  induction f as [|f IH]; intros it st t; cbn [parse_loop]; [reflexivity|]. destruct t as [|c t]; [reflexivity|].
  rewrite z_simple. destruct (simple_words _ (c :: t) st None) as [[ws l]|e]; cbn [rmap bind]; [|reflexivity]. unfold rmap at 1. cbn [bind fst snd]. rewrite z_words_map.
  assert (FIN : forall w st it,
    match map zpsg it with
    | [] => Ok (map zwl (map WWord ws) ++ [WWord (zword w)], true)
    | (cmd, t') :: it' => do y <- parse_loop f it' (apply cmd (zst st)) t'; Ok (map zwl (map WWord ws) ++ with_cmd (WWord (zword w)) cmd :: fst y, snd y)
    end = rmap (fun x => (map zwl (fst x), snd x))
    match it with
    | [] => Ok (map WWord ws ++ [WWord w], true)
    | (cmd, t') :: it' => do y <- parse_loop f it' (apply cmd st) t'; Ok (map WWord ws ++ with_cmd (WWord w) cmd :: fst y, snd y)
    end).
  { intros w s [|[c1 t1] it1]; cbn [map].
    - unfold rmap. cbn [bind fst snd]. rewrite map_app. reflexivity.
    - unfold zpsg at 1. cbn [fst snd]. rewrite z_apply, IH. destruct (parse_loop f it1 _ t1) as [[ys b]|e]; [|reflexivity]. unfold rmap. cbn [bind fst snd].
      rewrite map_app. cbn [map]. change (WWord (zword w)) with (zwl (WWord w)). rewrite z_with. reflexivity. }
  destruct l as [h|w]; cbn [zlast]; [|apply FIN].
  rewrite z_complete. destruct (complete_word it h st) as [[w nx]|e]; [|reflexivity]. unfold rmap at 1. cbn [bind fst snd].
  destruct nx as [[[|d r] it']|]; cbn [option_map fst snd].
  - exact (FIN w (w_state w) it').
  - cbn [ScaleWords.zword w_state]. change (w_state (zword w)) with (zst (w_state w)). rewrite IH. destruct (parse_loop f it' (w_state w) (d :: r)) as [[ys b]|e]; [|reflexivity]. unfold rmap. cbn [bind fst snd].
    rewrite map_app. reflexivity.
  - unfold rmap. cbn [bind fst snd]. rewrite map_app. reflexivity.
Qed.
Lemma z_fold it : forall st buf, fold_commands (map zpsg it) (zst st) (map zcmd buf)
  = (let '(c, n, s) := fold_commands it st buf in (zcmd c, option_map (fun y => (fst y, map zpsg (snd y))) n, zst s)).
Proof.
  induction it as [|[c t] it IH]; intros st buf; cbn [map fold_commands]; [rewrite z_squash; reflexivity|]. unfold zpsg at 1. cbn [fst snd].
  rewrite z_apply. assert (E : map zcmd buf ++ [zcmd c] = map zcmd (buf ++ [c])) by (rewrite map_app; reflexivity). rewrite E.
  destruct t as [|d t]; [apply IH|]. rewrite z_squash. reflexivity.
Qed.
Lemma z_into ps st : into_words (map zpsg ps) (zst st) = rmap (fun x => (zcmd (fst (fst x)), map zwl (snd (fst x)), snd x)) (into_words ps st).
Proof.
  unfold into_words. assert (F := z_fold ps st []). cbn [map] in F. rewrite F. destruct (fold_commands ps st []) as [[c n] s]. destruct n as [[t it]|]; cbn [option_map fst snd]; [|reflexivity].
  rewrite map_length, z_parse. destruct (parse_loop _ it s t) as [[ws b]|e]; reflexivity.
Qed.
Lemma z_group f : forall c t cont it, group f (zcmd c) t cont (map zpsg it)
  = (map zpsg (fst (group f c t cont it)), option_map (fun x => (zcmd (fst (fst x)), snd (fst x), map zpsg (snd x))) (snd (group f c t cont it))).
Proof.
  induction f as [|f IH]; intros c t cont it; cbn [group]; [reflexivity|]. assert (C : (if cont then NoOp else zcmd c) = zcmd (if cont then NoOp else c)) by (destruct cont; reflexivity). rewrite C.
  destruct (split_newline t) as [[be af]|]; [reflexivity|]. destruct it as [|[c1 t1] it]; cbn [map]; [reflexivity|]. unfold zpsg at 1. cbn [fst snd]. rewrite IH.
  destruct (group f c1 t1 false it) as [g nx]. reflexivity.
Qed.
Lemma z_groups f : forall c t cont it, groups f (zcmd c) t cont (map zpsg it) = map (map zpsg) (groups f c t cont it).
Proof.
  induction f as [|f IH]; intros c t cont it; cbn [groups]; [reflexivity|]. rewrite map_length, z_group. destruct (group _ c t cont it) as [g [[[c1 t1] it1]|]]; cbn [fst snd option_map map]; [|reflexivity].
  rewrite IH. reflexivity.
Qed.
Lemma z_splitlines ps : splitlines (map zpsg ps) = map (map zpsg) (splitlines ps).
Proof.
  destruct ps as [|[c t] it]; [reflexivity|]. cbn [map splitlines]. unfold zpsg at 1. cbn [fst snd].
  assert (T : text_size (zpsg (c, t) :: map zpsg it) = text_size ((c, t) :: it)). { unfold text_size. cbn [map snd]. rewrite map_map. reflexivity. }
  rewrite T. apply z_groups.
Qed.
Lemma z_max_lead ps st : max_lead (map zpsg ps) (zst st) = (max_lead ps st * k)%Qc.
Proof.
  assert (X : forall st acc, @max_lead_from QcNum (map zpsg ps) (zst st) (acc * k)%Qc = ((fst (@max_lead_from QcNum ps st acc) * k)%Qc, zst (snd (@max_lead_from QcNum ps st acc)))).
  { induction ps as [|[c t] ps IH]; intros s acc; cbn [map max_lead_from]; [reflexivity|]. unfold zpsg at 1. cbn [fst snd]. rewrite z_apply, z_lead. destruct t; [apply IH|].
    rewrite <- IH. f_equal. unfold nmax. rewrite z_lt by exact K. destruct (nltb _ _); reflexivity. }
  unfold max_lead. rewrite (z_0 k) at 1. rewrite X. destruct (@max_lead_from QcNum ps st n0) as [l s]. cbn [fst snd]. rewrite z_truthy by exact K. destruct (@ntruthy QcNum l); [reflexivity|apply z_lead].
Qed.
End Scale.
