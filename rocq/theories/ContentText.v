(** * ContentText: the TJ arrays of a content stream, as characters and adjustments. *)
From Coq Require Import QArith String Sorted.
From Verif Require Import Base Gfmt GfmtProofs Atoms PdfSpec AtomsProofs FontSpec FontProofs ContentSpec ContentProofs ReaderSpec.
From Verif Require Import Num Fonts State Words Render RenderSpec RenderProofs ContentOps FontsUsed ReaderText.
Local Open Scope list_scope.
Open Scope nat_scope.

Section C.
Context {NUM : Num} {ENV : Env NUM}.

(** ** Specification *)
(** a TJ array, for codes of [w] bytes: 9.4.3 *)
Inductive aev := ACode (b : bytes) | ANum (v : Q).
Fixpoint array_events (w : nat) (l : list pobj) : option (list aev) :=
  match l with
  | [] => Some []
  | PStr b :: r => option_map (app (map ACode (codes_of (List.length b) w b))) (array_events w r)
  | o :: r => obind (obj_num o) (fun v => option_map (cons (ANum v)) (array_events w r))
  end.
(** the characters of a fragment, each after the (negated) kerning at its position; and
    kerning after the last *)
Fixpoint placed {A} (i : nat) (glyphs : list A) (kern : list (nat * num)) : list (ev A) :=
  match glyphs with
  | [] => adjs_at kern i
  | g :: r => adjs_at kern i ++ Glyph g :: placed (S i) r kern
  end.
Definition item_events (i : titem) : list (ev (char * font)) :=
  match i with
  | ISlug s => placed 0 (map (fun c => (c, st_font (sl_state s))) (sl_txt s)) (sl_kern s)
  | ISpace t st => (if ntruthy (ts_kern t) then [Adj (nneg (ts_kern t))] else []) ++ [Glyph (32%N, st_font st)]
  end.
(** a code of the reader's font stands for a character meant for font [f] *)
Definition ev_says (c : coding) (a : aev) (e : ev (char * font)) : Prop :=
  match a, e with
  | ACode b, Glyph (x, f) => decode c b = Some [legible f x]
  | ANum v, Adj n => exists q, nto_Q n = Some q /\ near v q
  | _, _ => False
  end.
Definition code_width (c : coding) : nat := match c with WinAnsi => 1 | Cmap _ => 2 end.
(** [means base_name fonts f ops out]: a reader whose current font is [f], and who knows the
    fonts of the page by their names, sees the operators [ops] when it reads [out];
    [base_name]: what a font is called in the file *)
Inductive means (base_name : font -> bytes) (fonts : bytes -> option rfont) : option rfont -> list op -> list instr -> Prop :=
| means_nil f : means base_name fonts f [] []
| means_text f l a evs ops out :
    (l = [] /\ a = [] \/ exists g, f = Some g /\ array_events (code_width (rf_coding g)) a = Some evs
       /\ Forall2 (ev_says (rf_coding g)) evs (flat_map item_events l)) ->
    means base_name fonts f ops out -> means base_name fonts f (OTJ l :: ops) ((bs "TJ", [PArr a]) :: out)
| means_font f g n x z p ops out :
    fonts n = Some x -> rf_base x = Some (base_name g) ->
    num_says z p -> means base_name fonts (Some x) ops out ->
    means base_name fonts f (OTf g z :: ops) ((bs "Tf", [PName n; p]) :: out)
| means_other f o args ops out :
    (forall l, o <> OTJ l) -> (forall g z, o <> OTf g z) ->
    Forall2 num_says (op_nums o) args -> means base_name fonts f ops out ->
    means base_name fonts f (o :: ops) ((op_name o, args) :: out).

(** ** Proofs *)
Lemma placed_skip {A} (g : list A) : forall i j a k, j < i -> placed i g ((j, a) :: k) = placed i g k.
Proof.
  assert (X : forall i j a (k : list (nat * num)), j < i -> @adjs_at _ A ((j, a) :: k) i = adjs_at k i).
  { intros i j a k L. unfold adjs_at. cbn [filter fst]. replace (j =? i) with false by (symmetry; apply Nat.eqb_neq; lia). reflexivity. }
  induction g as [|x g IH]; intros i j a k L; cbn [placed]; rewrite X by exact L; [reflexivity|]. rewrite IH by lia. reflexivity.
Qed.
Lemma adjs_none {A} i (k : list (nat * num)) : Forall (fun e => i < fst e) k -> @adjs_at _ A k i = [].
Proof.
  intros H. unfold adjs_at. induction H as [|e k H _ IH]; [reflexivity|]. cbn [filter].
  replace (fst e =? i) with false by (symmetry; apply Nat.eqb_neq; lia). exact IH.
Qed.
Lemma placed_gap {A} (g h : list A) : forall i k, Forall (fun e => i + List.length g <= fst e) k ->
  placed i (g ++ h) k = map Glyph g ++ placed (i + List.length g) h k.
Proof.
  induction g as [|x g IH]; intros i k H; cbn [app placed map List.length].
  - rewrite Nat.add_0_r. reflexivity.
  - rewrite adjs_none; [|eapply Forall_impl; [|exact H]; cbn; intros; lia]. cbn [app]. f_equal.
    rewrite IH; [f_equal; f_equal; lia|]. eapply Forall_impl; [|exact H]. cbn. intros; lia.
Qed.
Lemma placed_nil {A} (g : list A) i : placed i g [] = map Glyph g.
Proof. revert i. induction g as [|x g IH]; intros i; [reflexivity|]. cbn. rewrite IH. reflexivity. Qed.
Lemma placed_first {A} (g : list A) i a k : placed i g ((i, a) :: k) = Adj (nneg a) :: placed i g k.
Proof.
  assert (X : @adjs_at _ A ((i, a) :: k) i = Adj (nneg a) :: adjs_at k i).
  { unfold adjs_at. cbn [filter fst]. rewrite Nat.eqb_refl. reflexivity. }
  destruct g as [|x g]; cbn [placed]; rewrite X; [reflexivity|]. rewrite placed_skip by lia. reflexivity.
Qed.
Lemma loop_placed w cs k : 0 < w -> code_len w cs -> forall p, p <= List.length cs -> Forall (fun e => p <= fst e) k ->
  kern_in (List.length cs) k ->
  tj_events w (kern_loop (concat cs) k w (p * w)) = placed p (skipn p cs) k.
Proof.
  intros Hw HC. induction k as [|[i a] k IH]; intros p LP GE [SO LE]; cbn [kern_loop].
  - rewrite (skipn_concat _ _ _ HC), tj_events_str by auto using code_len_skipn. rewrite placed_nil. reflexivity.
  - inversion GE as [|? ? GE1 GE2]; subst. inversion LE as [|? ? LE1 LE2]; subst. cbn [map fst] in *. inversion SO as [|? ? SO1 SO2]; subst.
    rewrite Forall_map in SO2.
    rewrite !(tj_events_cons w _ (_ :: _)), (tj_events_cons w (TAdj _)). unfold slice. rewrite (skipn_concat _ _ _ HC).
    replace (i * w - p * w) with ((i - p) * w) by (rewrite Nat.mul_sub_distr_r; lia).
    rewrite (firstn_concat _ _ _ (code_len_skipn w cs p HC)), tj_events_str by auto using code_len_skipn, code_len_firstn.
    rewrite (IH i LE1 SO2 (conj SO1 LE2)).
    assert (HLen : List.length (firstn (i - p) (skipn p cs)) = i - p) by (rewrite firstn_length, skipn_length; lia).
    rewrite <- (firstn_skipn (i - p) (skipn p cs)) at 2. rewrite placed_gap.
    2:{ rewrite HLen. constructor; cbn [fst]; [lia|]. eapply Forall_impl; [|exact SO2]. cbn. intros; lia. }
    rewrite HLen, skipn_twice. replace (p + (i - p)) with i by lia. rewrite placed_first. reflexivity.
Qed.
Lemma encode_placed w cs k : 0 < w -> code_len w cs -> kern_in (List.length cs) k ->
  tj_events w (encode_kerning (concat cs) k w) = placed 0 cs k.
Proof.
  intros Hw HC K. assert (G : forall k : list (nat * num), Forall (fun e => 0 <= fst e) k) by (intros; apply Forall_forall; intros; lia).
  destruct k as [|[[|i] a] k]; cbn [encode_kerning].
  - rewrite tj_events_str, placed_nil by assumption. reflexivity.
  - rewrite tj_events_cons, placed_first. cbn [tj_events flat_map app]. f_equal.
    apply (loop_placed w cs k Hw HC 0); [lia|apply G|]. destruct K as [K1 K2]. inversion K1; inversion K2; subst. split; assumption.
  - apply (loop_placed w cs _ Hw HC 0); [lia|apply G|exact K].
Qed.
(** encoded text, code by code *)
Lemma encode_codes (F : font -> Prop) final f s cs b cs' : F f -> cs_ok cs -> font_encode f s cs = (b, cs') -> cs_le cs' final -> good F final ->
  exists l, b = concat l /\ code_len (encoding_width f) l /\ Forall2 (fun c x => decode (font_codes final f) c = Some [legible f x]) l s.
Proof.
  intros FF K E L [G1 G2]. destruct (font_encode_spec f s cs b cs' K E) as (_ & _ & _ & D). unfold font_codes, encoding_width.
  destruct (is_builtin f) eqn:B.
  - subst b. exists (map (fun c => [cp1252_char c]) s). split; [unfold encode_builtin; clear; induction s; cbn; congruence|].
    split; [apply Forall_map, Forall_forall; auto|]. clear E. induction s as [|x s IH]; constructor; [apply (decode_builtin [x] f B)|exact IH].
  - destruct D as (is & F0 & ->). destruct (L f) as (t & T).
    assert (F' : Forall2 (fun c i => In (c, i) (cm_entries (cs_get final f))) s is).
    { rewrite T. clear -F0. induction F0; constructor; auto. apply in_or_app. auto. }
    exists (map utf16be_char is). split; [rewrite <- flat_map_concat_map; reflexivity|].
    assert (X : Forall2 (fun c x => List.length c = 2 /\ extract (map cmap_entry (cm_entries (cs_get final f))) c = Some [legible f x]) (map utf16be_char is) s).
    { clear -F' G1 G2 FF B. induction F' as [|c i s is H _ IH]; cbn [map]; constructor; [|exact IH].
      destruct (extract_codes _ [c] [i] (G1 f) (G2 f FF B)) as (X & Y); [repeat constructor; exact H|].
      cbn [flat_map] in X, Y. rewrite app_nil_r in X, Y. unfold legible. rewrite B. cbn [andb]. auto. }
    split.
    + clear -X. induction X as [|c x l s [H _] _ IH]; constructor; auto.
    + clear -X. induction X as [|c x l s [_ H] _ IH]; constructor; auto.
Qed.
(** reading an array of strings and numbers *)
Definition ev_num (e : ev bytes) (a : aev) : Prop :=
  match e, a with
  | Glyph b, ACode c => b = c
  | Adj n, ANum v => exists q, nto_Q n = Some q /\ near v q
  | _, _ => False
  end.
Lemma array_reads w t a : Forall2 tj_says t a -> exists evs, array_events w a = Some evs /\ Forall2 ev_num (tj_events w t) evs.
Proof.
  induction 1 as [|x o t a H _ (evs & E & F)]; [exists []; split; [reflexivity|constructor]|].
  destruct x as [b|z]; cbn [tj_says] in H.
  - subst o. cbn [array_events]. rewrite E. eexists. split; [reflexivity|]. rewrite tj_events_cons. apply Forall2_app; [|exact F].
    cbn [tj_events flat_map]. rewrite app_nil_r. generalize (codes_of (List.length b) w b). intros l. induction l; constructor; auto. reflexivity.
  - destruct H as (q & v & Q & O & NE). assert (Y : array_events w (o :: a) = obind (obj_num o) (fun v => option_map (cons (ANum v)) (array_events w a))) by (destruct o; first [reflexivity|discriminate O]).
    rewrite Y, O, E. cbn. eexists. split; [reflexivity|]. constructor; [exists q; auto|exact F].
Qed.
Definition ev_code (c : coding) (b : ev bytes) (e : ev (char * font)) : Prop :=
  match b, e with
  | Glyph b, Glyph (x, f) => decode c b = Some [legible f x]
  | Adj n, Adj m => n = m
  | _, _ => False
  end.
Lemma placed_codes c f l s k : Forall2 (fun b x => decode c b = Some [legible f x]) l s -> forall i,
  Forall2 (ev_code c) (placed i l k) (placed i (map (fun x => (x, f)) s) k).
Proof.
  assert (AD : forall i, Forall2 (ev_code c) (adjs_at k i) (adjs_at k i)).
  { intros i. unfold adjs_at. induction (filter _ k) as [|e r IH]; constructor; [reflexivity|exact IH]. }
  induction 1 as [|b x l s H _ IH]; intros i; cbn [placed map]; [apply AD|]. apply Forall2_app; [apply AD|]. constructor; [exact H|apply IH].
Qed.
Lemma width_pos f : 0 < encoding_width f.
Proof. unfold encoding_width. destruct (is_builtin f); lia. Qed.
Lemma item_codes final F i cs t cs' : good F final -> cs_le cs' final -> cs_ok cs -> item_in (fun f _ => F f) i -> item_tj i cs = (t, cs') ->
  let f := st_font (item_state i) in Forall2 (ev_code (font_codes final f)) (tj_events (encoding_width f) t) (item_events i).
Proof.
  intros G L K I E f. destruct i as [s|sp st]; cbn [item_tj item_events item_state item_text item_in] in *.
  - destruct (font_encode _ (sl_txt s) cs) as [b c] eqn:FE. injection E as <- <-.
    destruct (encode_codes F final _ _ _ _ _ (proj1 I) K FE L G) as (l & -> & CL & D). assert (LL : List.length l = List.length (sl_txt s)) by (clear -D; induction D; cbn; congruence).
    rewrite encode_placed; [|apply width_pos|exact CL|rewrite LL; apply I]. apply placed_codes, D.
  - destruct (font_encode _ [32%N] cs) as [b c] eqn:FE. injection E as <- <-.
    destruct (encode_codes F final _ _ _ _ _ I K FE L G) as (l & -> & CL & D). unfold tj_events. rewrite flat_map_app. apply Forall2_app.
    + destruct (ntruthy _); repeat constructor.
    + fold (tj_events (encoding_width f) [TStr (concat l)]). rewrite tj_events_str; [|apply width_pos|exact CL].
      inversion D as [|c0 x l0 s0 H D']; subst. inversion D'; subst. repeat constructor. exact H.
Qed.
Lemma empty_events c d w w' t es : Forall2 (ev_code c) (tj_events w t) es -> concat (tj_strs t) = [] ->
  Forall (fun e => match e with Glyph _ => False | Adj _ => True end) es -> Forall2 (ev_code d) (tj_events w' t) es.
Proof.
  intros H C N. replace (tj_events w' t) with (tj_events w t).
  - clear C. induction H as [|b e lb le H _ IH]; inversion N; subst; constructor; auto. destruct b as [b|n], e as [x|m]; auto. contradiction.
  - clear H N. induction t as [|[b|a] t IH]; [reflexivity| |].
    + cbn [tj_strs flat_map app concat] in C. apply app_eq_nil in C as [-> C]. rewrite (tj_events_cons w (TStr []) t), (tj_events_cons w' (TStr []) t), (IH C). reflexivity.
    + rewrite (tj_events_cons w (TAdj a) t), (tj_events_cons w' (TAdj a) t), (IH C). reflexivity.
Qed.
Lemma items_codes final F v l : good F final -> forall cs t cs', cs_ok cs -> Forall (item_in (fun f _ => F f)) l -> items_tj l cs = (t, cs') -> cs_le cs' final ->
  Forall (right_item v) l -> l <> [] ->
  exists f, v_font v = Some f /\ Forall2 (ev_code (font_codes final f)) (tj_events (encoding_width f) t) (flat_map item_events l).
Proof.
  intros G cs t cs' K I E L R NE.
  assert (X : forall f, v_font v = Some f -> Forall2 (ev_code (font_codes final f)) (tj_events (encoding_width f) t) (flat_map item_events l)).
  { intros f VF. clear NE. revert cs t cs' K I E L R. induction l as [|i l IH]; intros cs t cs' K I E L R; cbn [items_tj] in E.
    - injection E as <- <-. constructor.
    - destruct (item_tj i cs) as [t1 c1] eqn:E1. destruct (items_tj l c1) as [t2 c2] eqn:E2. injection E as <- <-.
      inversion I as [|? ? I1 I2]; subst. inversion R as [|? ? R1 R2]; subst.
      assert (K1 : cs_ok c1). { eapply (items_spec [i]); [exact K|]. cbn [items_tj]. rewrite E1. reflexivity. }
      destruct (items_spec _ _ _ _ K1 E2) as (_ & L2 & _).
      pose proof (item_codes final F i cs t1 c1 G (cs_le_trans _ _ _ L2 L) K I1 E1) as H. cbn zeta in H.
      destruct (same_codes final v i R1) as (g & VG & Y). rewrite VF in VG. injection VG as <-.
      unfold tj_events. rewrite flat_map_app. cbn [flat_map]. apply Forall2_app.
      + destruct Y as [TE|[Y1 Y2]]; [|rewrite Y1, Y2; exact H].
        destruct (item_strs final F i cs t1 c1 G (cs_le_trans _ _ _ L2 L) K I1 E1) as (b & FE & CB & _). rewrite TE in FE.
        rewrite (encode_empty _ _ _ _ K FE) in CB. eapply empty_events; [exact H|exact CB|].
        destruct i as [s|sp st]; [|discriminate TE]. cbn [item_text item_events] in *. rewrite TE. cbn [map placed]. unfold adjs_at.
        apply Forall_map, Forall_forall. intros; constructor.
      + eapply IH; eassumption. }
  destruct l as [|i l]; [congruence|]. inversion R as [|? ? R1 _]; subst. destruct R1 as (f & VF & _). exists f. split; [exact VF|apply X, VF].
Qed.
Lemma ev_compose c b a e : ev_num b a -> ev_code c b e -> ev_says c a e.
Proof.
  destruct b as [b|n], a as [c'|v], e as [[x f]|m]; cbn; try contradiction.
  - intros <-. auto.
  - intros H <-. exact H.
Qed.
Lemma code_width_font final f : code_width (font_codes final f) = encoding_width f.
Proof. unfold font_codes, encoding_width. destruct (is_builtin f); reflexivity. Qed.
Lemma says_means base_name final fonts R ops cs out cs' : good (fun f => In f R) final -> finds base_name final fonts R -> says R ops cs out cs' ->
  forall v cur, cs_ok cs -> cs_le cs' final -> ops_in (fun f _ => In f R) ops -> right_codes (fst (view v ops)) ->
  (forall f, v_font v = Some f -> cur = Some (mkRFont (Some (base_name f)) (font_codes final f))) ->
  means base_name fonts cur ops out.
Proof.
  intros G FI. induction 1 as [cs|l t cs cs' a ops out cs2 E S SA IH|f z p cs ops out cs2 P SA IH|o args cs ops out cs2 N1 N2 A SA IH]; intros v cur K L O RC CU.
  - constructor.
  - inversion O as [|? ? O1 O2]; subst. cbn [view vstep] in RC. destruct (view v ops) as [o' v'] eqn:V. cbn [fst] in RC.
    inversion RC as [|? ? RC1 RC2]; subst. cbn [sh_v sh_items] in RC1.
    destruct (items_spec _ _ _ _ K E) as (K1 & _ & _). destruct (says_spec _ _ _ _ _ SA K1) as (_ & L2 & _).
    specialize (IH v cur K1 L O2). rewrite V in IH. specialize (IH RC2 CU).
    destruct l as [|i l].
    + cbn in E. injection E as <- <-. inversion S; subst. apply means_text with (evs := []); [left; auto|exact IH].
    + destruct (items_codes final _ v (i :: l) G cs t cs' K O1 E (cs_le_trans _ _ _ L2 L) RC1 ltac:(discriminate)) as (f & VF & H).
      destruct (array_reads (encoding_width f) t a S) as (evs & AE & F). apply means_text with (evs := evs); [|exact IH]. right.
      eexists. split; [exact (CU f VF)|]. cbn [rf_coding]. rewrite code_width_font. split; [exact AE|].
      clear -H F. revert evs F. induction H as [|b e lb le H _ IH']; intros evs F; inversion F; subst; constructor; [eapply ev_compose; eassumption|apply IH'; assumption].
  - inversion O as [|? ? O1 O2]; subst. econstructor; [exact (FI f O1)|reflexivity|exact P|]. cbn [view] in RC.
    specialize (IH (vstep v (OTf f z)) (Some (mkRFont (Some (base_name f)) (font_codes final f))) K L O2).
    destruct (view (vstep v (OTf f z)) ops) as [o' v'] eqn:V. apply IH; [exact RC|]. cbn [vstep v_font]. intros f' X. injection X as <-. reflexivity.
  - inversion O as [|? ? O1 O2]; subst. destruct (op_name_other o N1 N2) as (_ & _ & _ & E4). constructor; auto.
    cbn [view] in RC. specialize (IH (vstep v o) cur K L O2). destruct (view (vstep v o) ops) as [o' v'] eqn:V. cbn [fst] in *.
    rewrite E4 in IH. apply IH; [|exact CU].
    assert (X : match o with OTJ items => mkShown v items :: o' | _ => o' end = o') by (destruct o; try reflexivity; exfalso; eapply N1; reflexivity).
    rewrite X in RC. exact RC.
Qed.
End C.
