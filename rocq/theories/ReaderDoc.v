(** * ReaderDoc: extracting the text of a written document. *)
From Coq Require Import QArith String.
From Verif Require Import Base Gfmt GfmtProofs Atoms PdfSpec AtomsProofs FileProofs NameProofs FontSpec FontProofs ContentSpec ContentProofs ReaderSpec.
From Verif Require Import Num Fonts State Style Words Parse Render RenderSpec RenderProofs Firstfit KnuthPlass
  Optimum Common Draw Layout ContentOps FontsUsed ReaderText ContentText Document DocumentSpec DocumentProofs.
Local Open Scope list_scope.
Open Scope nat_scope.

(** ** Dictionaries as read *)
Definition plain_keys (l : list (bytes * atom)) : Prop := Forall (fun kv => decode_name (fst kv) = Some (fst kv)) l.
Lemma dict_read l o : denotes (ADict l) o -> plain_keys l -> exists d, o = PDict d /\ forall k,
  match find (fun kv => if list_eq_dec N.eq_dec (fst kv) k then true else false) l with
  | Some kv => exists y, lookup k d = Some y /\ denotes (snd kv) y
  | None => lookup k d = None
  end.
Proof.
  intros D P. inversion D as [| | | | | | |l0 d F|]; subst. exists d. split; [reflexivity|]. intros k. clear D. unfold lookup.
  induction F as [|[a x] [b y] l d [E H] _ IH]; [reflexivity|]. inversion P as [|? ? P1 P2]; subst. cbn [fst snd] in *.
  rewrite P1 in E. injection E as <-. cbn [find fst]. destruct (list_eq_dec N.eq_dec a k); [|apply IH, P2].
  exists y. split; [reflexivity|exact H].
Qed.
Lemma dict_get l o k x : denotes (ADict l) o -> plain_keys l -> get k (ADict l) = Some x ->
  exists y, entry_of k o = Some y /\ denotes x y.
Proof.
  intros D P G. destruct (dict_read l o D P) as (d & -> & H). specialize (H (bs k)). cbn [get] in G.
  destruct (find _ l) as [kv|]; [|discriminate]. injection G as <-. exact H.
Qed.
Lemma dict_any l o k x : denotes (ADict l) o -> plain_keys l -> In (k, x) l ->
  exists d y z, o = PDict d /\ lookup k d = Some y /\ In (k, z) l /\ denotes z y.
Proof.
  intros D P I. destruct (dict_read l o D P) as (d & -> & H). specialize (H k). destruct (find _ l) as [[a z]|] eqn:F.
  - apply find_some in F as [F1 F2]. cbn [fst snd] in *. destruct (list_eq_dec N.eq_dec a k) as [->|]; [|discriminate].
    destruct H as (y & H1 & H2). exists d, y, z. auto.
  - apply (find_none _ _ F) in I. cbn [fst] in I. destruct (list_eq_dec N.eq_dec k k); congruence.
Qed.
Lemma legal_lit s : forallb is_regular (bs s) = true -> decode_name (bs s) = Some (bs s) -> legal_name (bs s).
Proof. intros A B. split; [exact A|eauto]. Qed.

Section R.
Context {NUM : Num} {ENV : Env NUM}.
Variables (compress : bytes -> bytes) (inflate : bytes -> option bytes).
Hypothesis INV : forall b, inflate (compress b) = Some b.

(** ** Objects as read *)
Lemma fetch_read l r : Forall2 (obj_reads compress) l r -> NoDup (map fst l) -> forall i a, In (i, a) l ->
  exists v d, fetch r i = Some (v, d) /\ obj_reads compress (i, a) (i, v, d).
Proof.
  intros F. induction F as [|[j b] [[j' v] d] l r H F IH]; intros ND i a I; [destruct I|].
  pose proof H as [H1 _]. cbn [fst] in H1. subst j'. cbn [map fst] in ND. inversion ND as [|? ? N1 N2]; subst.
  unfold fetch. cbn [find fst]. destruct (j =? i)%N eqn:E.
  - apply N.eqb_eq in E. subst j. destruct I as [I|I].
    + injection I as ->. exists v, d. split; [reflexivity|exact H].
    + exfalso. apply N1. apply (in_map fst) in I. exact I.
  - destruct I as [I|I]; [injection I as -> ->; rewrite N.eqb_refl in E; discriminate|]. apply (IH N2 i a I).
Qed.
Lemma stream_read i b v d : obj_reads compress (i, AStream b []) (i, v, d) -> stream_data inflate (v, d) = Some (concat b).
Proof.
  intros (_ & -> & D). unfold stream_data. cbn [snd obind fst app] in *.
  destruct (dict_get _ _ "Filter" (AName (bs "FlateDecode")) D) as (y & E & DY); [repeat constructor|reflexivity|].
  rewrite E. inversion DY as [w n DN| | | | | | | |]; subst. cbn in DN. injection DN as <-. cbn [is_name].
  change (bytes_eqb _ _) with true. apply INV.
Qed.
Lemma name_read' v n m : denotes (AName v) n -> decode_name v = Some m -> n = PName m.
Proof. intros D E. inversion D as [w k DN| | | | | | | |]; subst. rewrite E in DN. injection DN as <-. reflexivity. Qed.
Lemma name_read v n : denotes (AName v) n -> decode_name v = Some v -> n = PName v.
Proof. intros D E. inversion D as [w m DN| | | | | | | |]; subst. rewrite E in DN. injection DN as <-. reflexivity. Qed.
Lemma ref_read i n : denotes (ARef i) n -> n = PRef i 0.
Proof. intros D. inversion D; subst. reflexivity. Qed.

(** ** Fonts *)
Lemma decode_name_app a b x y : decode_name b = Some y -> forallb (fun c => negb (c =? 35)%N) a = true -> x = a -> decode_name (a ++ b) = Some (x ++ y).
Proof.
  intros B A ->. induction a as [|c a IH]; [exact B|]. cbn [forallb] in A. apply andb_true_iff in A as [A1 A2]. cbn [app decode_name].
  apply negb_true_iff in A1. rewrite A1, (IH A2). reflexivity.
Qed.
(** the name of a font in the file *)
Definition base_of (ttf_of : font -> ttf) (f : font) : bytes :=
  match f_face f with
  | TBuiltin b => builtin_name b (f_bold f) (f_italic f)
  | _ => bs "APDFJE+" ++ filter printable (ttf_name (ttf_of f))
  end.
Lemma decode_builtin_name b x y : decode_name (builtin_name b x y) = Some (builtin_name b x y).
Proof. destruct b, x, y; reflexivity. Qed.
Lemma is_builtin_face f : is_builtin f = true -> exists b, f_face f = TBuiltin b.
Proof. unfold is_builtin. destruct f as [[b|] x y]; cbn [f_face]; [eauto|discriminate]. Qed.
Lemma builtin_font ttf_of objs f o : is_builtin f = true -> denotes (builtin_resource f) o ->
  read_font inflate objs o = Some (mkRFont (Some (base_of ttf_of f)) WinAnsi).
Proof.
  intros B D. destruct (is_builtin_face f B) as (b & FB). unfold builtin_resource in D. rewrite FB in D. unfold read_font, font_coding, base_of. rewrite FB.
  destruct (dict_get _ _ "Subtype" (AName (bs "Type1")) D) as (y & E & DY); [repeat constructor|reflexivity|].
  destruct (dict_get _ _ "Encoding" (AName (bs "WinAnsiEncoding")) D) as (z & E' & DZ); [repeat constructor|reflexivity|].
  destruct (dict_get _ _ "BaseFont" (AName (builtin_name b (f_bold f) (f_italic f))) D) as (n & EN & DN); [repeat constructor|reflexivity|].
  rewrite E, E', EN. rewrite (name_read _ _ DY eq_refl), (name_read _ _ DZ eq_refl), (name_read _ _ DN (decode_builtin_name _ _ _)). reflexivity.
Qed.
Lemma embedded_font ttf_of l r f m i os : Forall2 (obj_reads compress) l r -> NoDup (map fst l) -> is_builtin f = false ->
  subset_objects f (ttf_of f) m i = Ok os -> incl os l -> Forall entry_ok (cm_entries m) ->
  exists x, deref r (PRef i 0) = Some x
    /\ read_font inflate r (fst x) = Some (mkRFont (Some (base_of ttf_of f)) (Cmap (map cmap_entry (cm_entries m)))).
Proof.
  intros F ND B E IN OK. unfold subset_objects in E. apply bind_ok in E as (u & _ & E). apply bind_ok in E as (g & _ & E).
  apply Ok_inj in E. subst os.
  destruct (fetch_read l r F ND i _ (IN _ (or_introl eq_refl))) as (v & d & FE & (_ & _ & D)). cbn [snd] in D.
  exists (v, d). cbn [deref fst]. split; [exact FE|]. unfold read_font, font_coding.
  destruct (dict_get _ _ "Subtype" (AName (bs "Type0")) D) as (y & E & DY); [repeat constructor|reflexivity|].
  destruct (dict_get _ _ "ToUnicode" (ARef (i + 2)) D) as (z & E' & DZ); [repeat constructor|reflexivity|].
  destruct (dict_get _ _ "BaseFont" (AName (bs "APDFJE+" ++ sanitize_name (ttf_name (ttf_of f)))) D) as (n & EN & DN); [repeat constructor|reflexivity|].
  unfold follow. rewrite E, E', EN, (name_read _ _ DY eq_refl), (ref_read _ _ DZ).
  change (is_name "Type1" (Some (PName (bs "Type0")))) with false. change (is_name "Type0" (Some (PName (bs "Type0")))) with true.
  cbn [andb obind deref].
  destruct (fetch_read l r F ND (i + 2)%N _ (IN _ (or_intror (or_intror (or_introl eq_refl))))) as (v2 & d2 & FE2 & D2).
  rewrite FE2. cbn [obind]. rewrite (stream_read _ _ _ _ D2). cbn [obind]. rewrite cmap_read_all by exact OK. cbn [flat_map snd option_map]. rewrite app_nil_r.
  assert (X : n = PName (base_of ttf_of f)).
  { unfold base_of. unfold is_builtin in B. destruct (f_face f); [discriminate|].
    apply (name_read' _ _ _ DN). apply decode_name_app; [apply decode_sanitize|reflexivity|reflexivity]. }
  rewrite X. reflexivity.
Qed.

(** ** Well-formed objects *)
Definition embeddable (t : ttf) : Prop :=
  forallb (fun c => negb (is_delim c)) (ttf_name t) = true /\ exists q, ttf_dw t = Some q /\ g_plain q = true.
Lemma lit_legal s : (forallb is_regular (bs s) && match decode_name (bs s) with Some _ => true | None => false end)%bool = true -> legal_name (bs s).
Proof. intros H. apply andb_true_iff in H as [A B]. split; [exact A|]. destruct (decode_name (bs s)); [eauto|discriminate]. Qed.
Lemma tagged_legal s : forallb (fun c => negb (is_delim c)) s = true -> legal_name (bs "APDFJE+" ++ sanitize_name s).
Proof.
  intros H. split; [rewrite forallb_app, sanitize_regular by exact H; reflexivity|]. eexists.
  eapply decode_name_app; [apply decode_sanitize|reflexivity|reflexivity].
Qed.
Ltac legal := first [apply lit_legal; reflexivity | apply tagged_legal; assumption | exact I].
Lemma subset_ok f t m i os : embeddable t -> subset_objects f t m i = Ok os -> Forall (fun o => ok_object (snd o)) os.
Proof.
  intros (N & q & Q & P) E. unfold subset_objects in E. apply bind_ok in E as (u & _ & E). apply bind_ok in E as (g & _ & E).
  apply Ok_inj in E. subst os.
  repeat (apply Forall_cons; [cbn [snd ok_object]|]); try apply Forall_nil.
  - cbn [wf_atom]. repeat split; legal.
  - unfold encode_widths. rewrite Q. apply wf_dict. repeat (apply Forall_cons; [split; [legal|]|]); try apply Forall_nil; try legal; try (exact P).
    cbn [snd]. apply wf_arr. repeat constructor. apply wf_arr. apply Forall_map, Forall_forall. intros; exact I.
  - split; constructor.
  - cbn [wf_atom cidsys_info]. repeat split; legal.
  - apply wf_dict. repeat (apply Forall_cons; [split; [legal|]|]); try apply Forall_nil; try legal.
    cbn [snd]. apply wf_arr. apply Forall_map, Forall_forall. intros; exact I.
  - split; constructor.
  - split; repeat constructor; try legal. cbn. discriminate.
Qed.

(** ** Pages *)
Lemma reads_content l out : reads l [] out -> read_content l = Some out.
Proof. intros H. apply H. lia. Qed.
Definition blank : vstate := mkV None n0 (mkRGB n0 n0 n0) n0 n0 n0.
(** the operators of a page can be printed (see C04), are in Unicode, and text is shown in
    the font it was encoded for *)
Definition fine_ops (ops : list op) : Prop :=
  Forall op_plain ops /\ unicode (fst (view blank ops)) /\ right_codes (fst (view blank ops)).
Definition fine (base : full) (p : laid_page) : Prop :=
  plain (px (pg_size (fst p))) /\ plain (py (pg_size (fst p))) /\ forall ops, page_ops base p = Ok ops -> fine_ops ops.
Definition page_says (base : full) (p : laid_page) (t : str) : Prop :=
  exists ops, page_ops base p = Ok ops /\ t = shown_text (fst (view blank ops)).
(** a reader sees the page: its size and rotation, and its operators *)
Definition zero (o : pobj) : Prop := exists v, obj_num o = Some v /\ (v == 0)%Q.
Definition page_seen (ttf_of : font -> ttf) (base : full) (p : laid_page) (vp : vpage) : Prop :=
  (exists x0 y0 x1 y1, vp_box vp = Some (PArr [x0; y0; x1; y1]) /\ zero x0 /\ zero y0
     /\ num_says (px (pg_size (fst p))) x1 /\ num_says (py (pg_size (fst p))) y1)
  /\ vp_rotate vp = Some (PInt (pg_rotate (fst p)))
  /\ exists ops, page_ops base p = Ok ops /\ means (base_of ttf_of) (vp_fonts vp) None ops (vp_instrs vp)
       /\ page_text vp = Some (shown_text (fst (view blank ops))).
Lemma streams_spec R base pages c strs c' : streams R base pages c strs c' -> Forall (fine base) pages -> cs_ok c -> cs_uni c ->
  cs_ok c' /\ cs_le c c' /\ cs_uni c'.
Proof.
  induction 1 as [c|p pages c ops b c1 strs c2 P O B S IH]; intros F K U; [split; [exact K|]; split; [apply cs_le_refl|exact U]|].
  inversion F as [|? ? (F1 & F2 & F3) F4]; subst. destruct (F3 ops P) as (G1 & G2 & G3).
  destruct (content_reads R ops c b c1 G1 B) as (out & SA & _). destruct (says_spec _ _ _ _ _ SA K) as (K1 & L1 & U1).
  destruct (IH F4 K1 (U1 _ U G2)) as (K2 & L2 & U2). split; [exact K2|]. split; [eapply cs_le_trans; eassumption|exact U2].
Qed.
Definition stream_says (ttf_of : font -> ttf) (base : full) (fonts : bytes -> option rfont) (p : laid_page) (b : list bytes) : Prop :=
  exists ops out, page_ops base p = Ok ops /\ read_content (concat b) = Some out /\ means (base_of ttf_of) fonts None ops out
    /\ instrs_text fonts out None = Some (shown_text (fst (view blank ops))).
Lemma streams_text ttf_of final fonts R base pages c strs c' : good (fun f => In f R) final -> finds (base_of ttf_of) final fonts R ->
  streams R base pages c strs c' -> Forall (fine base) pages -> cs_ok c -> cs_uni c -> cs_le c' final ->
  Forall2 (stream_says ttf_of base fonts) pages strs.
Proof.
  intros G FI. induction 1 as [c|p pages c ops b c1 strs c2 P O B S IH]; intros F K U L; [constructor|].
  inversion F as [|? ? (F1 & F2 & F3) F4]; subst. destruct (F3 ops P) as (G1 & G2 & G3).
  destruct (content_reads R ops c b c1 G1 B) as (out & SA & RD). destruct (says_spec _ _ _ _ _ SA K) as (K1 & L1 & U1).
  destruct (streams_spec _ _ _ _ _ _ S F4 K1 (U1 _ U G2)) as (_ & L2 & _).
  constructor; [|apply IH; [exact F4|exact K1|exact (U1 _ U G2)|exact L]].
  exists ops, out. split; [exact P|]. split; [exact (reads_content _ _ RD)|]. split.
  - apply (says_means _ final fonts R ops c out c1 G FI SA blank None K (cs_le_trans _ _ _ L2 L) O G3). intros f X. discriminate X.
  - apply (instrs_extract _ final fonts R ops c out c1 G FI SA blank None K (cs_le_trans _ _ _ L2 L) O G3). intros f X. discriminate X.
Qed.
Definition kid_read (r : list robj) (k : pobj) : option vpage :=
  obind (deref r k) (fun p => if is_name "Page" (entry_of "Type" (fst p)) then page_read inflate r (fst p) else None).
Lemma real_read x o : plain x -> denotes (AReal (nto_Q x)) o -> num_says x o.
Proof. exact (tj_denotes (TAdj x) o). Qed.
Lemma zero_read o : denotes (AReal (Some (0 # 1)%Q)) o -> zero o.
Proof.
  intros D. inversion D as [| |q' z V E1 E2|q' r V E1 E2| | | | |]; subst; eexists; (split; [reflexivity|]); rewrite V; reflexivity.
Qed.
Lemma kids_read ttf_of base l r fonts res fd : Forall2 (obj_reads compress) l r -> NoDup (map fst l) ->
  fetch r 3 = Some res -> follow r "Font" (fst res) = Some fd -> dict_of fd = Some fonts ->
  let named := fun n => obind (lookup n fonts) (fun f => obind (deref r f) (fun f => read_font inflate r (fst f))) in
  forall pages strs, Forall2 (stream_says ttf_of base named) pages strs -> Forall (fine base) pages -> forall i, incl (page_objs pages strs i) l ->
  exists vps, map_opt (kid_read r) (map (fun k => PRef k 0) (page_ids i (List.length pages))) = Some vps
  /\ Forall2 (page_seen ttf_of base) pages vps.
Proof.
  intros F ND R3 FD DD named pages strs H. induction H as [|p b pages strs (ops & out & PO & RC & ME & TX) _ IH]; intros FI i IN.
  - exists []. split; [reflexivity|constructor].
  - cbn [page_objs] in IN. inversion FI as [|? ? (F1 & F2 & _) FI2]; subst. destruct (IH FI2 (i + 2)%N) as (vps & E & T).
    { intros o I. apply IN. right. right. exact I. }
    destruct (fetch_read l r F ND i _ (IN _ (or_introl eq_refl))) as (v & d & FE & (_ & _ & D)). cbn [snd] in D.
    unfold page_dict in D. cbn [map rpage_laid rpage_of rp_size rp_rotate] in D.
    destruct (dict_get _ _ "Type" (AName (bs "Page")) D) as (y1 & E1 & D1); [repeat constructor|reflexivity|].
    destruct (dict_get _ _ "Resources" (ARef 3) D) as (y2 & E2 & D2); [repeat constructor|reflexivity|].
    destruct (dict_get _ _ "Contents" (ARef (i + 1)) D) as (y3 & E3 & D3); [repeat constructor|reflexivity|].
    destruct (dict_get _ _ "MediaBox" (AArr [AReal (Some (0 # 1)%Q); AReal (Some (0 # 1)%Q); AReal (nto_Q (px (pg_size (fst p)))); AReal (nto_Q (py (pg_size (fst p))))]) D) as (y4 & E4 & D4); [repeat constructor|reflexivity|].
    destruct (dict_get _ _ "Rotate" (AInt (pg_rotate (fst p))) D) as (y5 & E5 & D5); [repeat constructor|reflexivity|].
    exists (mkVPage (Some y4) (Some y5) named out :: vps). split.
    + cbn [List.length page_ids map map_opt].
      replace (kid_read r (PRef i 0)) with (Some (mkVPage (Some y4) (Some y5) named out)); [cbn [obind]; rewrite E; reflexivity|].
      unfold kid_read. cbn [deref]. rewrite FE. cbn [obind fst].
      rewrite E1, (name_read _ _ D1 eq_refl). change (is_name _ _) with true. cbn iota.
      unfold page_read, follow at 1. rewrite E2, (ref_read _ _ D2). cbn [obind deref]. rewrite R3. cbn [obind]. rewrite FD. cbn [obind].
      rewrite DD. cbn [obind]. unfold follow. rewrite E3, (ref_read _ _ D3). cbn [obind deref].
      destruct (fetch_read l r F ND (i + 1)%N _ (IN _ (or_intror (or_introl eq_refl)))) as (v2 & d2 & FE2 & D2').
      rewrite FE2. cbn [obind]. rewrite (stream_read _ _ _ _ D2'). cbn [obind]. rewrite RC, E4, E5. reflexivity.
    + constructor; [|exact T]. split; [|split].
      * inversion D4 as [| | | | | |l0 l' FK| |]; subst. cbn [vp_box].
        inversion FK as [|a0 x0 la0 lo0 Z0 FK0]; subst. inversion FK0 as [|a1 y0 la1 lo1 Z1 FK1]; subst.
        inversion FK1 as [|a2 x1 la2 lo2 Z2 FK2]; subst. inversion FK2 as [|a3 y1' la3 lo3 Z3 FK3]; subst. inversion FK3; subst.
        exists x0, y0, x1, y1'. repeat split; auto using zero_read, real_read.
      * cbn [vp_rotate]. inversion D5; subst. reflexivity.
      * exists ops. split; [exact PO|]. split; [exact ME|exact TX].
Qed.

(** ** The document *)
Lemma zip_count_snd {A} (l : list A) start step x : In x (zip_count l start step) -> In (fst x) l.
Proof. revert start. induction l as [|a l IH]; intros start; cbn; [auto|]. intros [<-|I]; [left; reflexivity|right; eapply IH, I]. Qed.
Lemma font_id_wf R f : legal_name (font_id R f) /\ decode_name (font_id R f) = Some (font_id R f).
Proof. destruct (font_id_legal R f) as (A & B). split; [split; [exact A|eauto]|exact B]. Qed.
Lemma builtin_ok f : wf_atom (builtin_resource f).
Proof.
  unfold builtin_resource. apply wf_dict. repeat (apply Forall_cons; [split; [legal|]|]); try apply Forall_nil; cbn [snd wf_atom]; try legal.
  destruct f as [[b|] x y]; cbn [f_face f_bold f_italic]; [|split; [reflexivity|eexists; reflexivity]].
  split; [destruct b, x, y; reflexivity|]. destruct b, x, y; eexists; reflexivity.
Qed.
Lemma resources_wf R first : wf_atom (resources_atom R first) /\ plain_keys (font_resources R first).
Proof.
  unfold resources_atom, font_resources. split.
  - apply wf_dict. constructor; [split; [legal|]|constructor]. cbn [snd]. apply wf_dict. apply Forall_app. split; apply Forall_map, Forall_forall.
    + intros f _. cbn [fst snd]. split; [apply font_id_wf|apply builtin_ok].
    + intros f _. cbn [fst snd]. split; [apply font_id_wf|exact I].
  - apply Forall_app. split; apply Forall_map, Forall_forall; intros f _; cbn [fst]; apply font_id_wf.
Qed.
Lemma page_objs_ok base pages : Forall (fine base) pages -> forall bs i, Forall (fun o => ok_object (snd o)) (page_objs pages bs i).
Proof.
  induction 1 as [|p pages (F1 & F2 & _) _ IH]; intros bs i; [constructor|]. destruct bs as [|b bs]; [constructor|]. cbn [page_objs].
  constructor; [|constructor; [split; constructor|apply IH]]. cbn [snd ok_object]. unfold page_dict. cbn [rpage_laid rpage_of rp_size rp_rotate].
  destruct F1 as (q1 & E1 & P1), F2 as (q2 & E2 & P2). rewrite E1, E2.
  apply wf_dict. repeat (apply Forall_cons; [split; [legal|]|]); try apply Forall_nil; cbn [snd]; try legal.
  apply wf_arr. repeat constructor; assumption.
Qed.
Lemma fonts_ok ttf_of cs l fos : (forall f, embeddable (ttf_of f)) -> Forall2 (embeds ttf_of cs) l fos ->
  Forall (fun o => ok_object (snd o)) (concat fos).
Proof.
  intros H. induction 1 as [|x os l fos E _ IH]; [constructor|]. cbn [concat]. apply Forall_app. split; [|exact IH].
  eapply subset_ok; [apply H|exact E].
Qed.
Theorem read_document fuel ttf_of items base objs pages R cs strs fos fid parts :
  finished fuel ttf_of items base objs pages R cs strs fos ->
  (forall f, embeddable (ttf_of f)) -> Forall (fine base) pages -> Forall is_byte fid ->
  write_file compress fid objs = Ok parts -> (N.of_nat (List.length (concat parts)) < 10 ^ 10)%N ->
  exists vps, pdf_pages inflate (concat parts) = Some vps /\ Forall2 (page_seen ttf_of base) pages vps.
Proof.
  intros H EM FI FB W SZ. pose proof (main_ids _ _ _ _ _ _ _ _ _ _ H) as MI. pose proof (all_ids _ _ _ _ _ _ _ _ _ _ H) as AI.
  destruct H as [_ _ NR ST FO O]. set (first := first_font_id (List.length pages)) in *. set (main := page_objs pages strs 4 ++ concat fos) in *.
  assert (OM : objs = main ++ [catalog; (2%N, ADict [(bs "Type", AName (bs "Pages")); (bs "Kids", AArr (map ARef (page_ids 4 (List.length pages))));
                (bs "Count", AInt (Z.of_nat (List.length pages)))]); (3%N, resources_atom R first)]).
  { rewrite O. unfold main, headers. rewrite app_assoc. reflexivity. }
  rewrite OM in W. eapply file_round_trip in W; [| | |exact FB|exact SZ].
  2:{ repeat split. rewrite MI. unfold count_up. apply (f_equal (@List.length _)) in MI. unfold count_up in MI. rewrite !map_length, seq_length in MI.
      rewrite MI. rewrite <- (seq_shift_n 4). apply map_map. }
  2:{ apply Forall_app. split; [apply Forall_app; split; [eapply page_objs_ok; exact FI|eapply fonts_ok; eassumption]|].
      constructor; [|constructor; [|constructor; [|constructor]]]; cbn [snd ok_object catalog].
      - apply wf_dict. repeat (apply Forall_cons; [split; [legal|]|]); try apply Forall_nil; cbn [snd]; legal.
      - apply wf_dict. repeat (apply Forall_cons; [split; [legal|]|]); try apply Forall_nil; cbn [snd]; try legal.
        apply wf_arr, Forall_map, Forall_forall. intros; exact I.
      - apply resources_wf. }
  destruct W as (r & RF & F2).
  match type of F2 with Forall2 _ ?x _ => set (l := x) in * end.
  assert (ND : NoDup (map fst l)).
  { unfold l. cbn [map fst catalog]. assert (N : NoDup (map fst objs)) by (rewrite AI; apply ids_nodup). rewrite OM, map_app in N.
    cbn [map fst catalog] in N. clear -N. apply NoDup_remove in N as [N N1]. apply NoDup_remove in N as [N N2]. apply NoDup_remove in N as [N N3].
    rewrite app_nil_r in *. constructor.
    - intros [X|[X|X]]; try discriminate X. apply N1. apply in_or_app. left. exact X.
    - constructor; [intros [X|X]; [discriminate X|apply N2; apply in_or_app; left; exact X]|]. constructor; assumption. }
  assert (IM : incl main l) by (intros o I; unfold l; do 3 right; exact I).
  destruct (streams_spec _ _ _ _ _ _ ST FI cs_ok_nil cs_uni_nil) as (K & _ & U).
  assert (EMB : forall f, In f R -> is_builtin f = false -> exists k os, nth_error (subsets_of R) k = Some f
     /\ subset_objects f (ttf_of f) (cs_get cs f) (first + 7 * N.of_nat k) = Ok os /\ incl os l).
  { intros f If Bf. destruct (font_id_embedded R f If Bf) as (k & NK & _). pose proof (zip_count_nth _ first 7 _ _ NK) as Z.
    assert (X : exists os, nth_error fos k = Some os /\ embeds ttf_of cs (f, (first + 7 * N.of_nat k)%N) os).
    { clear -FO Z. generalize dependent (first + 7 * N.of_nat k)%N. intros i Z. revert k Z.
      induction FO as [|x os l fos H _ IH]; intros [|k] Z; try discriminate; cbn [nth_error] in *.
      - injection Z as ->. eauto.
      - apply IH, Z. }
    destruct X as (os & NO & E). exists k, os. split; [exact NK|]. split; [exact E|]. intros o I. apply IM. unfold main. apply in_or_app. right.
    apply in_concat. exists os. split; [eapply nth_error_In; exact NO|exact I]. }
  assert (G : good (fun f => In f R) cs).
  { split; [exact K|]. intros f If Bf. destruct (EMB f If Bf) as (k & os & _ & E & _). unfold subset_objects in E.
    apply bind_ok in E as (u & A & _). unfold assert_ in A. destruct (_ <? 65535)%N eqn:LT; [|discriminate]. apply N.ltb_lt in LT.
    specialize (U f). rewrite Forall_forall in *. intros [c i] Hci. split; cbn [fst snd].
    - apply (U (c, i) Hci).
    - pose proof (cids_code_lt _ c i (K f) Hci). lia. }
  destruct (fetch_read l r F2 ND 3%N (resources_atom R first)) as (v3 & d3 & R3 & (_ & _ & D3)); [unfold l; do 2 right; left; reflexivity|].
  cbn [snd resources_atom] in D3.
  destruct (dict_get _ _ "Font" (ADict (font_resources R first)) D3) as (fd & EF & DF); [repeat constructor|reflexivity|].
  destruct (dict_read _ _ DF (proj2 (resources_wf R first))) as (fonts & -> & _).
  set (named := fun n => obind (lookup n fonts) (fun f => obind (deref r f) (fun f => read_font inflate r (fst f)))).
  assert (FN : finds (base_of ttf_of) cs named R).
  { intros f If. destruct (font_entries R first f If) as ((a & IA) & Y).
    destruct (dict_any _ _ _ _ DF (proj2 (resources_wf R first)) IA) as (d & y & z & ED & LK & IZ & DZ). injection ED as <-.
    specialize (Y z IZ). unfold font_entry in Y. unfold font_codes, named. rewrite LK. cbn [obind]. destruct (is_builtin f) eqn:Bf.
    - subst z. pose proof DZ as DZ'. unfold builtin_resource in DZ. destruct (dict_read _ _ DZ) as (dd & -> & _); [repeat constructor|].
      cbn [deref obind fst]. apply (builtin_font ttf_of r f); assumption.
    - destruct Y as (k & NK & ->). rewrite (ref_read _ _ DZ) in *. destruct (EMB f If Bf) as (k' & os & NK' & E & IN).
      assert (k = k').
      { assert (NoDup (subsets_of R)) as NS by (apply NoDup_filter, NR). eapply NoDup_nth_error; [exact NS|apply nth_error_Some; congruence|congruence]. }
      subst k'. destruct (embedded_font ttf_of l r f _ _ os F2 ND Bf E IN (proj2 G f If Bf)) as (x & DX & FX).
      rewrite DX. cbn [obind]. exact FX. }
  assert (STX : Forall2 (stream_says ttf_of base named) pages strs).
  { eapply streams_text; [exact G|exact FN|exact ST|exact FI|apply cs_ok_nil|apply cs_uni_nil|apply cs_le_refl]. }
  destruct (kids_read ttf_of base l r fonts (v3, d3) (PDict fonts, None) F2 ND R3) with (pages := pages) (strs := strs) (i := 4%N) as (vps & E & T).
  { unfold follow. cbn [fst]. rewrite EF. reflexivity. }
  { reflexivity. }
  { exact STX. }
  { exact FI. }
  { intros o I. apply IM. unfold main. apply in_or_app. left. exact I. }
  exists vps. split; [|exact T]. unfold pdf_pages. rewrite RF. cbn [obind fst snd].
  change (lookup (bs "Root") (trailer_dict fid (List.length main + 3))) with (Some (PRef 1 0)). cbn [obind deref].
  destruct (fetch_read l r F2 ND 1%N (snd catalog)) as (v1 & d1 & R1 & (_ & _ & D1)); [unfold l; left; reflexivity|]. cbn [snd catalog] in D1.
  rewrite R1. cbn [obind fst].
  destruct (dict_get _ _ "Pages" (ARef 2) D1) as (y & EP & DP); [repeat constructor|reflexivity|].
  unfold pages_read, follow. rewrite EP, (ref_read _ _ DP). cbn [obind deref].
  match type of OM with _ = _ ++ [_; ?x; _] => destruct (fetch_read l r F2 ND 2%N (snd x)) as (v2 & d2 & R2 & (_ & _ & D2)); [unfold l; right; left; reflexivity|] end.
  cbn [snd] in D2. rewrite R2. cbn [obind fst].
  destruct (dict_get _ _ "Kids" (AArr (map ARef (page_ids 4 (List.length pages)))) D2) as (y2 & EK & DK); [repeat constructor|reflexivity|].
  rewrite EK. inversion DK as [| | | | | |l0 l' FK| |]; subst l0 y2.
  assert (l' = map (fun k => PRef k 0) (page_ids 4 (List.length pages))) as ->.
  { clear -FK. remember (map ARef _) as ids eqn:EI. revert EI. generalize (page_ids 4 (List.length pages)). induction FK as [|a o la lo D _ IH]; intros [|x ids] EI; try discriminate; [reflexivity|].
    cbn [map] in *. injection EI as -> ->. rewrite (ref_read _ _ D). f_equal. apply IH. reflexivity. }
  exact E.
Qed.
Theorem extract_document fuel ttf_of items base objs pages R cs strs fos fid parts :
  finished fuel ttf_of items base objs pages R cs strs fos ->
  (forall f, embeddable (ttf_of f)) -> Forall (fine base) pages -> Forall is_byte fid ->
  write_file compress fid objs = Ok parts -> (N.of_nat (List.length (concat parts)) < 10 ^ 10)%N ->
  exists texts, pdf_text inflate (concat parts) = Some texts /\ Forall2 (page_says base) pages texts.
Proof.
  intros H EM FI FB W SZ. destruct (read_document _ _ _ _ _ _ _ _ _ _ _ _ H EM FI FB W SZ) as (vps & E & F).
  unfold pdf_text. rewrite E. cbn [obind]. clear -F. induction F as [|p vp pages vps (_ & _ & ops & PO & _ & TX) _ (texts & E & T)].
  - exists []. split; [reflexivity|constructor].
  - cbn [map_opt]. rewrite TX. cbn [obind]. rewrite E. eexists. split; [reflexivity|]. constructor; [exists ops; auto|exact T].
Qed.
End R.
