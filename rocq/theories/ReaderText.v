(** * ReaderText: what a reader extracts from the strings of a content stream. *)
From Coq Require Import QArith String.
From Verif Require Import Base Gfmt GfmtProofs Atoms PdfSpec AtomsProofs FontSpec FontProofs ContentSpec ContentProofs ReaderSpec.
From Verif Require Import Num Fonts State Words Render RenderSpec RenderProofs ContentOps FontsUsed.
Local Open Scope list_scope.
Open Scope nat_scope.

(** ** Specification *)
(** characters which cp1252 has *)
Definition encodable (c : char) : bool :=
  existsb (fun b => match cp1252_decode (N.of_nat b) with Some d => (d =? c)%N | None => false end) (seq 0 256).
(** what is left of a character in a font: standard fonts show "?" for those not in cp1252 *)
Definition legible (f : font) (c : char) : char := if is_builtin f && negb (encodable c) then 63%N else c.
Section S.
Context {NUM : Num} {ENV : Env NUM}.
(** the text of what is shown *)
Definition shown_text (l : list shown) : str :=
  flat_map (fun s => flat_map (fun i => map (legible (st_font (item_state i))) (item_text i)) (sh_items s)) l.
(** it is shown in the font it was encoded for, or at least in one with the same codes *)
Definition right_codes (l : list shown) : Prop :=
  Forall (fun s => Forall (fun i => exists f, v_font (sh_v s) = Some f /\
    (item_text i = [] \/ f = st_font (item_state i) \/ is_builtin f = true /\ is_builtin (st_font (item_state i)) = true)) (sh_items s)) l.
Definition unicode (l : list shown) : Prop :=
  Forall (fun s => Forall (fun i => Forall (fun c => c < 1114112)%N (item_text i)) (sh_items s)) l.
End S.

Lemma skipn_twice {A} (l : list A) : forall i j, skipn j (skipn i l) = skipn (i + j) l.
Proof. induction l as [|x l IH]; intros [|i] j; cbn [skipn Nat.add]; try reflexivity; [destruct j; reflexivity|apply IH]. Qed.
(** ** Code tables *)
Lemma encodable_spec c : cp1252_decode (cp1252_char c) = Some (if encodable c then c else 63%N).
Proof.
  destruct (encodable c) eqn:E.
  - unfold encodable in E. apply existsb_exists in E as (b & _ & E). destruct (cp1252_decode (N.of_nat b)) as [d|] eqn:D; [|discriminate].
    apply N.eqb_eq in E. subst d. pose proof (cp1252_decode_char _ _ D) as H. rewrite H. exact D.
  - destruct (cp1252_char_total c) as [H|H]; [|rewrite H; reflexivity]. exfalso.
    assert (L : (cp1252_char c < 256)%N).
    { unfold cp1252_decode in H. destruct (_ <? 128)%N eqn:A; [apply N.ltb_lt in A; lia|]. destruct (_ <? 160)%N eqn:B; [apply N.ltb_lt in B; lia|].
      destruct (_ <? 256)%N eqn:C; [apply N.ltb_lt in C; exact C|discriminate]. }
    assert (X : encodable c = true).
    { unfold encodable. apply existsb_exists. exists (N.to_nat (cp1252_char c)). split; [apply in_seq; lia|].
      rewrite N2Nat.id, H. apply N.eqb_refl. }
    congruence.
Qed.
Lemma map_opt_app {A B} (f : A -> option B) a b : map_opt f (a ++ b) = obind (map_opt f a) (fun x => option_map (app x) (map_opt f b)).
Proof.
  induction a as [|x a IH]; cbn [app map_opt obind].
  - destruct (map_opt f b); reflexivity.
  - destruct (f x) as [y|]; cbn [obind]; [|reflexivity]. rewrite IH. destruct (map_opt f a) as [u|]; cbn [obind option_map]; [|reflexivity].
    destruct (map_opt f b); reflexivity.
Qed.
Lemma decode_builtin s f : is_builtin f = true -> decode WinAnsi (encode_builtin s) = Some (map (legible f) s).
Proof.
  intros B. cbn [decode]. unfold encode_builtin. induction s as [|c s IH]; [reflexivity|]. cbn [map map_opt].
  rewrite encodable_spec. cbn [obind]. rewrite IH. cbn [option_map]. unfold legible. rewrite B. destruct (encodable c); reflexivity.
Qed.

Lemma cs_get_set cs f g m : cs_get (cs_set cs f m) g = if font_eqb g f then m else cs_get cs g.
Proof.
  induction cs as [|[h x] cs IH]; cbn [cs_set cs_get]; [reflexivity|].
  destruct (font_eqb f h) eqn:E.
  - apply font_eqb_eq in E. subst h. cbn [cs_get]. destruct (font_eqb g f) eqn:E; reflexivity.
  - cbn [cs_get]. rewrite IH. destruct (font_eqb g h) eqn:E2; [|reflexivity]. destruct (font_eqb g f) eqn:E3; [|reflexivity].
    apply font_eqb_eq in E2, E3. subst. rewrite (proj2 (font_eqb_eq h h) eq_refl) in E. discriminate.
Qed.
Definition cs_ok (cs : cstate) : Prop := forall f, cids_ok (cs_get cs f).
Definition cs_uni (cs : cstate) : Prop := forall f, Forall (fun e => fst e < 1114112)%N (cm_entries (cs_get cs f)).
Definition cs_le (cs cs' : cstate) : Prop := forall f, exists t, cm_entries (cs_get cs' f) = cm_entries (cs_get cs f) ++ t.
Lemma cs_le_refl cs : cs_le cs cs. Proof. intros f. exists []. rewrite app_nil_r. reflexivity. Qed.
Lemma cs_le_trans a b c : cs_le a b -> cs_le b c -> cs_le a c.
Proof. intros H K f. destruct (H f) as (t & E), (K f) as (u & E'). exists (t ++ u). rewrite E', E, app_assoc. reflexivity. Qed.
Lemma cs_ok_nil : cs_ok []. Proof. intros f. split; reflexivity. Qed.
Lemma cs_uni_nil : cs_uni []. Proof. intros f. constructor. Qed.
Lemma font_encode_spec f s cs b cs' : cs_ok cs -> font_encode f s cs = (b, cs') ->
  cs_ok cs' /\ cs_le cs cs' /\ (cs_uni cs -> Forall (fun c => c < 1114112)%N s -> cs_uni cs')
  /\ if is_builtin f then b = encode_builtin s
     else exists is, Forall2 (fun c i => In (c, i) (cm_entries (cs_get cs' f))) s is /\ b = flat_map utf16be_char is.
Proof.
  intros K. unfold font_encode. destruct (is_builtin f).
  - intros E. injection E as <- <-. split; [exact K|]. split; [apply cs_le_refl|]. auto.
  - unfold encode_subset. destruct (translate (cs_get cs f) s) as [is m] eqn:T. intros E. injection E as <- <-.
    destruct (translate_ok s _ is m (K f) T) as (K1 & C1 & F1 & [t T1]).
    split; [intros g; rewrite cs_get_set; destruct (font_eqb g f); auto|]. split; [|split].
    + intros g. rewrite cs_get_set. destruct (font_eqb g f) eqn:E; [|exists []; rewrite app_nil_r; reflexivity].
      apply font_eqb_eq in E. subst g. exists t. exact T1.
    + intros U S g. rewrite cs_get_set. destruct (font_eqb g f) eqn:E; [|apply U].
      assert (G : forall s acc x, In x (fold_left first_step s acc) -> In x acc \/ In x s).
      { clear. induction s as [|c s IH]; cbn; intros acc x H; auto.
        apply IH in H. unfold first_step in H. destruct H as [H|H]; auto.
        destruct (existsb _ _); auto. apply in_app_or in H as [H|[H|[]]]; auto. }
      apply Forall_forall. intros e I. apply (in_map fst) in I. change (In (fst e) (codes m)) in I. rewrite C1 in I. apply G in I as [I|I].
      * unfold codes in I. apply in_map_iff in I as (e' & <- & I). specialize (U f). rewrite Forall_forall in U. apply U, I.
      * rewrite Forall_forall in S. apply S, I.
    + exists is. split; [|reflexivity]. rewrite cs_get_set, (proj2 (font_eqb_eq f f) eq_refl). exact F1.
Qed.

(** ** Strings *)
(** the coding of a font, given the final code tables *)
Definition font_codes (final : cstate) (f : font) : coding :=
  if is_builtin f then WinAnsi else Cmap (map cmap_entry (cm_entries (cs_get final f))).
Definition good (F : font -> Prop) (final : cstate) : Prop :=
  cs_ok final /\ forall f, F f -> is_builtin f = false -> Forall entry_ok (cm_entries (cs_get final f)).
Lemma encode_decode (F : font -> Prop) final f s cs b cs' : F f -> cs_ok cs -> font_encode f s cs = (b, cs') -> cs_le cs' final -> good F final ->
  decode (font_codes final f) b = Some (map (legible f) s) /\ List.length b = encoding_width f * List.length s.
Proof.
  intros FF K E L [G1 G2]. destruct (font_encode_spec f s cs b cs' K E) as (_ & _ & _ & D). unfold font_codes, encoding_width.
  destruct (is_builtin f) eqn:B.
  - subst b. split; [apply decode_builtin, B|]. unfold encode_builtin. rewrite map_length. lia.
  - destruct D as (is & F0 & ->). cbn [decode].
    assert (F' : Forall2 (fun c i => In (c, i) (cm_entries (cs_get final f))) s is).
    { destruct (L f) as (t & T). rewrite T. clear -F0. induction F0; constructor; auto. apply in_or_app. auto. }
    destruct (extract_codes _ s is (G1 f) (G2 f FF B) F') as (X & Y). rewrite X. split; [|exact Y].
    f_equal. symmetry. rewrite <- (map_id s) at 2. apply map_ext. intros c. unfold legible. rewrite B. reflexivity.
Qed.
(** decoding in pieces *)
Definition piece (f : font) (p : bytes) : Prop := exists m, List.length p = m * encoding_width f.
Lemma extract_app es a b : Nat.even (List.length a) = true -> extract es (a ++ b) = obind (extract es a) (fun x => option_map (app x) (extract es b)).
Proof.
  remember (List.length a) as n eqn:N. revert a N. induction n as [n IH] using lt_wf_ind. intros [|x [|y a]] N E; cbn [List.length] in N.
  - cbn. destruct (extract es b); reflexivity.
  - subst n. discriminate.
  - cbn [app extract]. destruct (lookup_code es [x; y]) as [c|]; [|reflexivity].
    subst n. rewrite (IH (List.length a)) by (try reflexivity; try lia; exact E).
    destruct (extract es a) as [u|]; cbn [obind]; [|reflexivity]. destruct (extract es b) as [v|]; cbn; [|reflexivity].
    rewrite app_assoc. reflexivity.
Qed.
Lemma decode_app final f a b : piece f a -> decode (font_codes final f) (a ++ b) =
  obind (decode (font_codes final f) a) (fun x => option_map (app x) (decode (font_codes final f) b)).
Proof.
  intros (m & M). unfold font_codes, encoding_width in *. destruct (is_builtin f); cbn [decode].
  - apply map_opt_app.
  - apply extract_app. rewrite M, Nat.even_mul. apply orb_true_r.
Qed.
Section P.
Context {NUM : Num} {ENV : Env NUM}.
Definition tj_strs (t : list tj) : list bytes := flat_map (fun x => match x with TStr b => [b] | TAdj _ => [] end) t.
Lemma tj_strs_app a b : tj_strs (a ++ b) = tj_strs a ++ tj_strs b. Proof. apply flat_map_app. Qed.
Lemma kern_loop_strs b k f n : List.length b = encoding_width f * n -> forall i, i <= n -> Forall (fun e => i <= fst e) k ->
  kern_in n k ->
  concat (tj_strs (kern_loop b k (encoding_width f) (i * encoding_width f))) = skipn (i * encoding_width f) b
  /\ Forall (piece f) (tj_strs (kern_loop b k (encoding_width f) (i * encoding_width f))).
Proof.
  intros LB. set (w := encoding_width f) in *. induction k as [|[j x] k IH]; intros i I GE [SO LE]; cbn [kern_loop tj_strs flat_map concat app].
  - rewrite app_nil_r. split; [reflexivity|]. constructor; [|constructor]. exists (n - i). rewrite skipn_length, LB. fold w. nia.
  - inversion GE as [|? ? GE1 GE2]; subst. inversion LE as [|? ? LE1 LE2]; subst. cbn [map fst] in *. inversion SO as [|? ? SO1 SO2]; subst.
    destruct (IH j LE1) as (C & P).
    { clear -SO2. rewrite Forall_map in SO2. exact SO2. }
    { split; assumption. }
    fold (tj_strs (kern_loop b k w (j * w))). rewrite C. split.
    + unfold slice. replace (skipn (j * w) b) with (skipn (j * w - i * w) (skipn (i * w) b)); [apply firstn_skipn|].
      rewrite skipn_twice. f_equal. nia.
    + constructor; [|exact P]. exists (j - i). unfold slice. rewrite firstn_length, skipn_length, LB. fold w.
      assert (i * w <= j * w /\ j * w <= w * n) as [? ?] by nia. rewrite Nat.min_l by nia. nia.
Qed.
Lemma encode_kerning_strs b k f n : List.length b = encoding_width f * n -> kern_in n k ->
  concat (tj_strs (encode_kerning b k (encoding_width f))) = b /\ Forall (piece f) (tj_strs (encode_kerning b k (encoding_width f))).
Proof.
  intros LB K. unfold encode_kerning. destruct k as [|[[|i] x] k].
  - cbn. rewrite app_nil_r. split; [reflexivity|]. constructor; [|constructor]. exists n. rewrite LB. lia.
  - cbn [tj_strs flat_map app]. apply (kern_loop_strs b k f n LB 0); [lia| |].
    + apply Forall_forall. intros; lia.
    + destruct K as [K1 K2]. inversion K1; inversion K2; subst. split; assumption.
  - apply (kern_loop_strs b _ f n LB 0); [lia| |exact K]. apply Forall_forall. intros; lia.
Qed.
Lemma item_strs final F i cs t cs' : good F final -> cs_le cs' final -> cs_ok cs -> item_in (fun f _ => F f) i -> item_tj i cs = (t, cs') ->
  exists b, font_encode (st_font (item_state i)) (item_text i) cs = (b, cs') /\ concat (tj_strs t) = b
  /\ Forall (piece (st_font (item_state i))) (tj_strs t).
Proof.
  intros G L K I E. destruct i as [s|sp st]; cbn [item_tj item_state item_text item_in] in *.
  - destruct (font_encode _ (sl_txt s) cs) as [b c] eqn:FE. injection E as <- <-. exists b. split; [reflexivity|].
    apply (encode_kerning_strs b (sl_kern s) (st_font (sl_state s)) (List.length (sl_txt s))); [|apply I].
    apply (encode_decode F final _ _ _ _ _ (proj1 I) K FE L G).
  - destruct (font_encode _ [32%N] cs) as [b c] eqn:FE. injection E as <- <-. exists b. split; [reflexivity|].
    rewrite tj_strs_app. replace (tj_strs (if ntruthy (ts_kern sp) then [TAdj (nneg (ts_kern sp))] else [])) with (@nil bytes) by (destruct (ntruthy _); reflexivity).
    cbn. rewrite app_nil_r. split; [reflexivity|]. constructor; [|constructor].
    exists 1. rewrite (proj2 (encode_decode F final _ _ _ _ _ I K FE L G)). cbn [List.length]. lia.
Qed.
(** strings in a TJ array *)
Lemma tj_text_pieces final f t a rest : Forall2 tj_says t a -> Forall (piece f) (tj_strs t) ->
  tj_text (Some (font_codes final f)) (a ++ rest) =
  obind (decode (font_codes final f) (concat (tj_strs t))) (fun x => option_map (app x) (tj_text (Some (font_codes final f)) rest)).
Proof.
  intros S. induction S as [|x o t a S _ IH]; intros P.
  - cbn [tj_strs flat_map concat app]. assert (decode (font_codes final f) [] = Some []) as -> by (unfold font_codes; destruct (is_builtin f); reflexivity).
    cbn [obind]. destruct (tj_text _ rest); reflexivity.
  - destruct x as [b|z]; cbn [tj_says] in S.
    + subst o. cbn [tj_strs flat_map app] in P. inversion P as [|? ? P1 P2]; subst. cbn [app tj_text obind tj_strs flat_map concat].
      fold (tj_strs t). rewrite (decode_app final f b) by exact P1. destruct (decode _ b) as [u|]; cbn [obind]; [|reflexivity].
      rewrite (IH P2). destruct (decode _ (concat (tj_strs t))) as [v|]; cbn [obind option_map]; [|reflexivity].
      destruct (tj_text _ rest); cbn; [|reflexivity]. rewrite app_assoc. reflexivity.
    + destruct S as (q & v & _ & O & _). cbn [app tj_text]. destruct o; try discriminate O; apply IH, P.
Qed.
Definition right_item (v : vstate) (i : titem) : Prop := exists f, v_font v = Some f /\
    (item_text i = [] \/ f = st_font (item_state i) \/ is_builtin f = true /\ is_builtin (st_font (item_state i)) = true).
Lemma same_codes final v i : right_item v i -> exists f, v_font v = Some f
  /\ (item_text i = [] \/ font_codes final f = font_codes final (st_font (item_state i)) /\ encoding_width f = encoding_width (st_font (item_state i))).
Proof.
  intros (f & E & [X|[X|[A B]]]); exists f; (split; [exact E|]); [left; exact X|right; rewrite X; auto|].
  right. unfold font_codes, encoding_width. rewrite A, B. auto.
Qed.
Lemma concat_nil {A} (l : list (list A)) : concat l = [] -> Forall (fun x => x = []) l.
Proof. induction l as [|x l IH]; cbn; intros H; constructor; apply app_eq_nil in H as [A1 A2]; auto. Qed.
Lemma encode_empty f cs b cs' : cs_ok cs -> font_encode f [] cs = (b, cs') -> b = [].
Proof.
  intros K E. destruct (font_encode_spec _ _ _ _ _ K E) as (_ & _ & _ & D). destruct (is_builtin f); [exact D|].
  destruct D as (is & F & ->). inversion F. reflexivity.
Qed.
Definition items_txt (l : list titem) : str := flat_map (fun i => map (legible (st_font (item_state i))) (item_text i)) l.
Lemma items_spec l : forall cs t cs', cs_ok cs -> items_tj l cs = (t, cs') ->
  cs_ok cs' /\ cs_le cs cs' /\ (cs_uni cs -> Forall (fun i => Forall (fun c => c < 1114112)%N (item_text i)) l -> cs_uni cs').
Proof.
  induction l as [|i l IH]; intros cs t cs' K E; cbn [items_tj] in E.
  - injection E as <- <-. split; [exact K|]. split; [apply cs_le_refl|auto].
  - destruct (item_tj i cs) as [t1 c1] eqn:E1. destruct (items_tj l c1) as [t2 c2] eqn:E2. injection E as <- <-.
    assert (X : cs_ok c1 /\ cs_le cs c1 /\ (cs_uni cs -> Forall (fun c => c < 1114112)%N (item_text i) -> cs_uni c1)).
    { destruct i as [s|sp st]; cbn [item_tj item_text] in *.
      - destruct (font_encode _ (sl_txt s) cs) as [b c] eqn:FE. injection E1 as <- <-. destruct (font_encode_spec _ _ _ _ _ K FE) as (A & B & C & _). auto.
      - destruct (font_encode _ [32%N] cs) as [b c] eqn:FE. injection E1 as <- <-. destruct (font_encode_spec _ _ _ _ _ K FE) as (A & B & C & _). auto. }
    destruct X as (K1 & L1 & U1). destruct (IH _ _ _ K1 E2) as (K2 & L2 & U2). split; [exact K2|]. split; [eapply cs_le_trans; eassumption|].
    intros U H. inversion H; subst. auto.
Qed.
Lemma items_text final F v l : good F final -> forall cs t cs' a c, cs_ok cs -> Forall (item_in (fun f _ => F f)) l -> items_tj l cs = (t, cs') -> cs_le cs' final ->
  Forall (right_item v) l -> Forall2 tj_says t a -> (forall f, v_font v = Some f -> c = Some (font_codes final f)) ->
  tj_text c a = Some (items_txt l).
Proof.
  intros G. induction l as [|i l IH]; intros cs t cs' a c K I E L R S C; cbn [items_tj] in E.
  - injection E as <- <-. inversion S; subst. reflexivity.
  - destruct (item_tj i cs) as [t1 c1] eqn:E1. destruct (items_tj l c1) as [t2 c2] eqn:E2. injection E as <- <-.
    inversion I as [|? ? I1 I2]; subst. inversion R as [|? ? R1 R2]; subst.
    apply Forall2_app_inv_l in S as (a1 & a2 & S1 & S2 & ->).
    assert (K1 : cs_ok c1).
    { eapply (items_spec [i]); [exact K|]. cbn [items_tj]. rewrite E1. reflexivity. }
    destruct (items_spec _ _ _ _ K1 E2) as (_ & L2 & _).
    destruct (item_strs final F i cs t1 c1 G (cs_le_trans _ _ _ L2 L) K I1 E1) as (b & FE & CB & P).
    destruct (same_codes final v i R1) as (f & VF & [TE|[CE _]]); pose proof (C f VF) as CF.
    { rewrite TE in FE. pose proof (encode_empty _ _ _ _ K FE) as ->. rewrite CF.
      rewrite (tj_text_pieces final f t1 a1 a2 S1).
      - rewrite CB. assert (decode (font_codes final f) [] = Some []) as -> by (unfold font_codes; destruct (is_builtin f); reflexivity).
        cbn [obind]. rewrite <- CF. rewrite (IH c1 t2 c2 a2 c K1 I2 E2 L R2 S2 C). cbn [option_map app]. unfold items_txt. cbn [flat_map]. rewrite TE. reflexivity.
      - eapply Forall_impl; [|exact (concat_nil _ CB)]. intros x ->. exists 0. cbn. lia. }
    rewrite CE in CF. rewrite CF.
    rewrite (tj_text_pieces final _ t1 a1 a2 S1 P), CB.
    assert (FI : F (st_font (item_state i))) by (destruct i; [apply I1|exact I1]).
    destruct (encode_decode F final _ _ _ _ _ FI K FE (cs_le_trans _ _ _ L2 L) G) as (D & _). rewrite D. cbn [obind].
    rewrite <- CF. rewrite (IH c1 t2 c2 a2 c K1 I2 E2 L R2 S2 C). reflexivity.
Qed.

(** ** Operators *)
Lemma says_spec R ops cs out cs' : says R ops cs out cs' -> cs_ok cs ->
  cs_ok cs' /\ cs_le cs cs' /\ (forall v, cs_uni cs -> unicode (fst (view v ops)) -> cs_uni cs').
Proof.
  induction 1 as [cs|l t cs cs' a ops out cs2 E S _ IH|f z p cs ops out cs2 P _ IH|o args cs ops out cs2 N1 N2 A _ IH]; intros K.
  - split; [exact K|]. split; [apply cs_le_refl|auto].
  - destruct (items_spec _ _ _ _ K E) as (K1 & L1 & U1). destruct (IH K1) as (K2 & L2 & U2). split; [exact K2|].
    split; [eapply cs_le_trans; eassumption|]. intros v U H. cbn [view] in H.
    destruct (view (vstep v (OTJ l)) ops) as [o' v'] eqn:V. cbn [fst] in H. inversion H as [|? ? H1 H2]; subst.
    apply (U2 (vstep v (OTJ l))); [apply U1; assumption|]. rewrite V. exact H2.
  - destruct (IH K) as (K2 & L2 & U2). split; [exact K2|]. split; [exact L2|]. intros v U H. cbn [view] in H.
    destruct (view (vstep v (OTf f z)) ops) as [o' v'] eqn:V. apply (U2 (vstep v (OTf f z))); [exact U|]. rewrite V. exact H.
  - destruct (IH K) as (K2 & L2 & U2). split; [exact K2|]. split; [exact L2|]. intros v U H. cbn [view] in H.
    destruct (view (vstep v o) ops) as [o' v'] eqn:V. apply (U2 (vstep v o)); [exact U|]. rewrite V.
    destruct o; try exact H. exfalso. eapply N1. reflexivity.
Qed.
Lemma op_name_other o : (forall l, o <> OTJ l) -> (forall f z, o <> OTf f z) ->
  bytes_eqb (op_name o) (bs "Tf") = false /\ bytes_eqb (op_name o) (bs "TJ") = false
  /\ (bytes_eqb (op_name o) (bs "Tj") || bytes_eqb (op_name o) [39%N] || bytes_eqb (op_name o) [34%N]) = false
  /\ forall v, v_font (vstep v o) = v_font v.
Proof.
  intros A B. destruct o; try (repeat split; reflexivity).
  - exfalso. eapply B. reflexivity.
  - exfalso. eapply A. reflexivity.
Qed.
(** how a reader finds the fonts *)
Variable base_name : font -> bytes.
Definition finds (final : cstate) (fonts : bytes -> option rfont) (R : list font) : Prop :=
  forall f, In f R -> fonts (font_id R f) = Some (mkRFont (Some (base_name f)) (font_codes final f)).
Lemma instrs_extract final fonts R ops cs out cs' : good (fun f => In f R) final -> finds final fonts R ->
  says R ops cs out cs' -> forall v c, cs_ok cs -> cs_le cs' final -> ops_in (fun f _ => In f R) ops ->
  right_codes (fst (view v ops)) -> (forall f, v_font v = Some f -> c = Some (font_codes final f)) ->
  instrs_text fonts out c = Some (shown_text (fst (view v ops))).
Proof.
  intros G FI. induction 1 as [cs|l t cs cs' a ops out cs2 E S SA IH|f z p cs ops out cs2 P SA IH|o args cs ops out cs2 N1 N2 A SA IH]; intros v c K L O RC C.
  - reflexivity.
  - inversion O as [|? ? O1 O2]; subst. cbn [view vstep] in *. destruct (view v ops) as [o' v'] eqn:V. cbn [fst] in *.
    inversion RC as [|? ? RC1 RC2]; subst. cbn [sh_v sh_items] in RC1.
    destruct (items_spec _ _ _ _ K E) as (K1 & L1 & _). destruct (says_spec _ _ _ _ _ SA K1) as (_ & L2 & _).
    cbn [instrs_text]. change (bytes_eqb (bs "TJ") (bs "Tf")) with false. change (bytes_eqb (bs "TJ") (bs "TJ")) with true. cbn iota.
    rewrite (items_text final _ v l G cs t cs' a c K O1 E (cs_le_trans _ _ _ L2 L) RC1 S C). cbn [obind].
    specialize (IH v c K1 L O2). rewrite V in IH. rewrite (IH RC2 C). reflexivity.
  - inversion O as [|? ? O1 O2]; subst. cbn [view] in *. destruct (view (vstep v (OTf f z)) ops) as [o' v'] eqn:V. cbn [fst] in *.
    cbn [instrs_text]. change (bytes_eqb (bs "Tf") (bs "Tf")) with true. cbn iota.
    rewrite (FI f O1). cbn [obind rf_coding].
    specialize (IH (vstep v (OTf f z)) (Some (font_codes final f)) K L O2). rewrite V in IH. apply IH; [exact RC|].
    intros f' H. injection H as <-. reflexivity.
  - inversion O as [|? ? O1 O2]; subst. destruct (op_name_other o N1 N2) as (E1 & E2 & E3 & E4). cbn [instrs_text]. rewrite E1, E2, E3.
    cbn [view] in *. destruct (view (vstep v o) ops) as [o' v'] eqn:V. cbn [fst] in *.
    specialize (IH (vstep v o) c K L O2). rewrite V in IH. cbn [fst] in IH.
    assert (X : match o with OTJ items => mkShown v items :: o' | _ => o' end = o').
    { destruct o; try reflexivity. exfalso. eapply N1. reflexivity. }
    rewrite X in RC |- *. apply IH; [exact RC|]. rewrite E4. exact C.
Qed.
End P.
