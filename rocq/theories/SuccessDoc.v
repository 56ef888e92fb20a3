(** * SuccessDoc: rendering and writing whole documents ends without an exception *)
From Coq Require Import String QArith Qcanon.
From Verif Require Import Base Gfmt Atoms GfmtProofs AtomsProofs FileProofs FontProofs Num Fonts State Style StateProofs
  Properties_Style Words Parse WordsSpec WordWidth Render Firstfit KnuthPlass Optimum
  Common Draw Layout LayoutSpec LayoutProofs LayoutPages LayoutRoom Properties_Layout FontsUsed Properties_Words Document DocumentSpec DocumentProofs
  ReaderStd Fuel LayoutTotal SuccessProofs LayoutRules.
Open Scope nat_scope.
Local Open Scope list_scope.

(** ** Pages *)
Section Gen.
Context {NUM : Num} {ENV : Env NUM}.
Lemma auto_gen_total base blocks : forall pending doc n comp doc', auto_loop n blocks base doc = Ok (comp, doc') ->
  exists ys fs, map snd ys = comp /\ (forall f, In f (concat (map fst ys) ++ fs) -> In f pending \/ exists b, In b blocks /\ In f (block_fonts b base))
    /\ forall fuel, n <= fuel -> auto_gen fuel blocks base pending doc = (ys, Ok (fs, doc')).
Proof.
  induction blocks as [|b r IH]; intros pending doc n comp doc' E; cbn [auto_loop] in E; cbn [auto_gen].
  - apply Ok_inj in E. injection E as <- <-. exists [], pending. split; [reflexivity|]. split; [cbn; auto|]. reflexivity.
  - apply bind_ok in E as (cols & C & E). apply bind_ok in E as ((c1 & d1) & F & E).
    apply bind_ok in E as ((c2 & d2) & A & E). cbn [fst snd] in *. apply Ok_inj in E. injection E as <- <-.
    assert (CS : forall fuel, n <= fuel -> block_columns fuel b base (flat_todo doc) = Ok cols).
    { intros fuel L. rewrite (block_columns_stable b base (flat_todo doc) n fuel L); [exact C|]. rewrite C. discriminate. }
    destruct c1 as [|p ps].
    + destruct (IH (pending ++ block_fonts b base) _ _ _ _ A) as (ys & fs & M & IN & G). exists ys, fs. split; [exact M|]. split.
      * intros f I. destruct (IN f I) as [I2|(b' & I2 & I3)]; [|right; exists b'; cbn; auto].
        apply in_app_iff in I2 as [I2|I2]; [auto|]. right. exists b. cbn. auto.
      * intros fuel L. rewrite (CS fuel L). cbn [bind]. rewrite F. apply G, L.
    + destruct (IH [] _ _ _ _ A) as (ys & fs & M & IN & G).
      exists ((pending ++ block_fonts b base, p) :: map (pair []) ps ++ ys), fs. split; [|split].
      * cbn [map snd app]. rewrite map_app, map_map, M. cbn [snd]. rewrite map_id. reflexivity.
      * intros f I. cbn [map concat fst] in I. rewrite map_app, concat_app in I. rewrite !in_app_iff in I.
        assert (Z : ~ In f (concat (map fst (map (pair (@nil font)) ps)))).
        { clear. induction ps as [|q ps IHp]; cbn; auto. }
        destruct I as [[[I|I]|[I|I]]|I]; [auto| |tauto| |].
        -- right. exists b. cbn. auto.
        -- destruct (IN f) as [[]|(b' & I2 & I3)]; [apply in_app_iff; auto|]. right. exists b'. cbn. auto.
        -- destruct (IN f) as [[]|(b' & I2 & I3)]; [apply in_app_iff; auto|]. right. exists b'. cbn. auto.
      * intros fuel L. rewrite (CS fuel L). cbn [bind]. rewrite F. rewrite (G fuel L). reflexivity.
Qed.
(** the pages of an item, whatever the fuel from [n] on *)
Definition item_fonts (base : full) (i : ditem) : list font :=
  match i with DPage _ => [] | DAuto blocks _ => flat_map (fun b => block_fonts b base) blocks end.
Definition item_page (i : ditem) (p : page drawing) : Prop :=
  match i with DPage q => p = q | DAuto _ template => exists k, p = template k end.
Definition item_ends (base : full) (i : ditem) : Prop :=
  match i with
  | DPage _ => True
  | DAuto blocks template => forall pnum, exists n x, forall fuel, n <= fuel ->
      auto_loop fuel blocks base (fun k => pf_new (template (pnum + Z.of_nat k)%Z)) = Ok x
  end.
Definition page_from (base : full) (items : list ditem) (y : yielded) : Prop :=
  exists i, In i items /\ incl (fst y) (item_fonts base i)
  /\ exists p, item_page i p /\ rp_content (snd y) = pg_content p /\ rp_rotate (snd y) = pg_rotate p /\ rp_size (snd y) = pg_size p.
Lemma item_gen_total base i pnum : item_ends base i ->
  exists n ys, Forall (page_from base [i]) ys /\ ys <> [] /\ forall fuel, n <= fuel -> item_gen fuel base i pnum = (ys, None).
Proof.
  destruct i as [p|blocks template]; cbn [item_ends item_gen].
  - intros _. exists 0, [([], rpage_of p [])]. split; [|split; [discriminate|reflexivity]].
    constructor; [|constructor]. exists (DPage p). split; [cbn; auto|]. split; [intros f []|]. exists p. cbn. auto.
  - intros H. destruct (H pnum) as (n & [comp doc'] & E).
    destruct (auto_gen_total base blocks [] _ n comp doc' (E n (le_n n))) as (ys & fs & M & IN & G).
    pose proof (auto_loop_bases _ _ _ _ _ _ (E n (le_n n))) as B. cbn beta in B. cbn [pf_base pf_new] in B.
    eexists n, _. split; [|split; [|intros fuel L; rewrite (G fuel L); cbn [fst snd]; reflexivity]].
    + assert (BF : forall f, In f (concat (map fst ys) ++ fs) -> In f (flat_map (fun b => block_fonts b base) blocks)).
      { intros f I. destruct (IN f I) as [[]|(b & I1 & I2)]. apply in_flat_map. eauto. }
      apply Forall_app. split.
      * apply Forall_forall. intros y I. apply in_map_iff in I as ([fs0 pf] & <- & I). exists (DAuto blocks template).
        split; [cbn; auto|]. cbn [fst snd item_fonts]. split.
        { intros f If. apply BF. apply in_app_iff. left. apply in_concat. exists fs0. split; [|exact If].
          apply in_map_iff. exists (fs0, pf). auto. }
        assert (I2 : In pf comp) by (rewrite <- M; apply in_map_iff; exists (fs0, pf); auto).
        apply In_nth_error in I2 as (k & NK). specialize (B k). unfold sapp in B. rewrite NK in B.
        exists (pf_base pf). cbn. split; [exists (pnum + Z.of_nat k)%Z; exact B|]. auto.
      * constructor; [|constructor]. exists (DAuto blocks template). split; [cbn; auto|]. cbn [fst snd item_fonts]. split.
        { intros f If. apply BF. apply in_app_iff. right. exact If. }
        specialize (B (List.length comp)). unfold sapp in B. rewrite (proj2 (nth_error_None _ _) (le_n _)), Nat.sub_diag in B.
        exists (pf_base (doc' 0)). cbn. split; [eexists; exact B|]. auto.
    + intros E0. apply app_eq_nil in E0 as [_ E0]. discriminate.
Qed.
Lemma page_from_incl base l l' y : incl l l' -> page_from base l y -> page_from base l' y.
Proof. intros I (i & J & K). exists i. split; [apply I, J|exact K]. Qed.
Lemma pages_gen_total base items : Forall (item_ends base) items -> forall pagenum,
  exists n ys, Forall (page_from base items) ys /\ (ys = [] -> items = []) /\ forall fuel, n <= fuel -> pages_gen fuel base items pagenum = (ys, None).
Proof.
  induction 1 as [|i r H _ IH]; intros pagenum; cbn [pages_gen].
  - exists 0, []. split; [constructor|]. auto.
  - destruct (item_gen_total base i (pagenum + 1)%Z H) as (n1 & ys1 & P1 & NE & G1).
    destruct (IH (pagenum + Z.of_nat (List.length ys1))%Z) as (n2 & ys2 & P2 & _ & G2).
    exists (n1 + n2), (ys1 ++ ys2). split; [|split].
    + apply Forall_app. split; [eapply Forall_impl; [|exact P1]|eapply Forall_impl; [|exact P2]]; intros y; apply page_from_incl;
        intros x I; cbn in *; tauto.
    + intros E. apply app_eq_nil in E as [E _]. congruence.
    + intros fuel L. rewrite (G1 fuel ltac:(lia)). cbn [fst snd]. rewrite (G2 fuel ltac:(lia)). reflexivity.
Qed.
End Gen.

(** ** Atoms: only a real that is not finite cannot be written *)
Fixpoint finite (a : atom) : Prop :=
  match a with
  | AReal None => False
  | AArr l => (fix go (l : list atom) := match l with [] => True | x :: r => finite x /\ go r end) l
  | ADict l | AStream _ l => (fix go (l : list (bytes * atom)) := match l with [] => True | (_, x) :: r => finite x /\ go r end) l
  | _ => True
  end.
Lemma finite_arr l : (fix go (l : list atom) := match l with [] => True | x :: r => finite x /\ go r end) l <-> Forall finite l.
Proof. induction l as [|x l IH]; [split; constructor|]. rewrite IH. split; [intros []; constructor; auto|intros H; inversion H; auto]. Qed.
Lemma finite_dict (l : list (bytes * atom)) : (fix go (l : list (bytes * atom)) := match l with [] => True | (_, x) :: r => finite x /\ go r end) l <-> Forall (fun kv => finite (snd kv)) l.
Proof. induction l as [|[k x] l IH]; [split; constructor|]. rewrite IH. split; [intros []; constructor; auto|intros H; inversion H; auto]. Qed.
Lemma mapM_total {A B} (f : A -> res B) l : Forall (fun x => exists y, f x = Ok y) l -> exists ys, mapM f l = Ok ys.
Proof.
  induction 1 as [|x l (y & E) _ (ys & IH)]; [exists []; reflexivity|]. cbn [mapM]. rewrite E. cbn [bind]. rewrite IH. eexists; reflexivity.
Qed.
Section Write.
Variable compress : bytes -> bytes.
Lemma write_total a : finite a -> exists b, write_atom compress a = Ok b.
Proof.
  induction a as [v|z|q|v|v|l IH|l IH|c l IH|t] using atom_ind'; intros F; try (eexists; reflexivity).
  - destruct q; [eexists; reflexivity|destruct F].
  - rewrite write_arr_eq. cbn in F. apply finite_arr in F.
    destruct (mapM_total (write_atom compress) l) as (ws & E); [|rewrite E; eexists; reflexivity].
    rewrite Forall_forall in *. auto.
  - rewrite write_dict_eq. cbn in F. apply finite_dict in F.
    destruct (mapM_total (write_kv compress) l) as (ws & E); [|rewrite E; eexists; reflexivity].
    rewrite Forall_forall in *. intros kv I. unfold write_kv. destruct (IH kv I (F kv I)) as (b & ->). eexists; reflexivity.
  - cbn [write_atom]. rewrite write_ents_eq. cbn in F. apply finite_dict in F.
    destruct (mapM_total (write_kv compress) l) as (ws & E); [|rewrite E; eexists; reflexivity].
    rewrite Forall_forall in *. intros kv I. unfold write_kv. destruct (IH kv I (F kv I)) as (b & ->). eexists; reflexivity.
Qed.
Lemma chunks_total objs e : Forall (fun o => finite (snd o)) objs -> exists l, chunks_gen compress objs e = (l, e) /\ List.length l = List.length objs.
Proof.
  induction 1 as [|o objs H _ (l & IH & LE)]; cbn [chunks_gen]; [exists []; auto|].
  unfold write_obj. destruct (write_total (snd o) H) as (b & ->). cbn [bind]. rewrite IH. cbn [fst snd]. eexists. split; [reflexivity|]. cbn. congruence.
Qed.
Lemma acc_length l : forall a, List.length (accumulate_from a l) = List.length l.
Proof. induction l as [|x l IH]; intros a; cbn; auto. Qed.
Lemma write_gen_total fid objs : 3 <= List.length objs -> Forall (fun o => finite (snd o)) objs ->
  exists out, write_gen compress fid objs Finished = (out, Finished).
Proof.
  intros L F. destruct (chunks_total objs Finished F) as (l & E & LE). unfold write_gen. rewrite E. cbn [fst snd].
  set (offs := accumulate_from _ _).
  assert (LO : List.length (rev offs) = S (List.length l)) by (rewrite rev_length; unfold offs; rewrite acc_length, map_length; reflexivity).
  destruct (rev offs) as [|x1 [|x2 [|x3 [|x4 rest]]]]; cbn in LO; try lia.
  unfold write_trailer. destruct (write_total (ADict [(bs "Root", ARef 1); (bs "Size", AInt (Z.of_nat (List.length (x4 :: x3 :: x2 :: rev rest)) + 1)); (bs "ID", AArr [AHex fid; AHex fid])])) as (b & ->).
  { cbn. tauto. }
  cbn [bind]. eexists. reflexivity.
Qed.
End Write.

(** ** Content streams *)
Section Draw.
Context {ENV : Env QcNum}.
Definition drawable (d : @drawing QcNum) : Prop :=
  match d with
  | DPolyline (p :: r) _ _ _ => (exists a, first_point p = Ok a) /\ Forall (fun q => exists a, other_point q = Ok a) r
  | _ => True
  end.
Lemma text_lines_total gs : all_split -> forall st, exists ls, text_lines gs st = Ok ls.
Proof.
  intros HY. induction gs as [|g r IH]; intros st; cbn [text_lines]; [eexists; reflexivity|].
  destruct (C24_words_total _ _ g st HY) as (cmd & ws & ex & ->). cbn [bind]. destruct ex; [|eexists; reflexivity].
  destruct (IH (match rev ws with w :: _ => wl_state w | [] => st end)) as (ls & ->). cbn [bind]. eexists; reflexivity.
Qed.
Lemma draw_total d base : all_split -> drawable d -> exists ops, draw_ops d base = Ok ops.
Proof.
  intros HY D. destruct d as [| | | |pts cl f s|loc c sty a]; cbn [draw_ops]; try (eexists; reflexivity).
  - unfold polyline_ops. destruct pts as [|p r]; [eexists; reflexivity|]. destruct D as ((a & ->) & D2). cbn [bind].
    destruct (mapM_total other_point r D2) as (l & ->). eexists; reflexivity.
  - unfold text_ops. destruct (text_lines_total (splitlines (flatten base sty c)) HY (as_state base)) as (ls & ->). eexists; reflexivity.
Qed.
Lemma op_total r o cs : exists x, @op_bytes QcNum r o cs = Ok x.
Proof.
  destruct o; cbn [op_bytes]; try (eexists; reflexivity). destruct (items_tj items cs) as [t cs']. unfold tj_bytes.
  destruct (write_total (fun b => b) (AArr (map tj_atom t))) as (b & ->).
  - cbn. apply finite_arr. apply Forall_map. apply Forall_forall. intros [x|x] _; exact I.
  - eexists; reflexivity.
Qed.
Lemma ops_total r l : forall cs, exists x, @ops_bytes QcNum r l cs = Ok x.
Proof.
  induction l as [|o l IH]; intros cs; cbn [ops_bytes]; [eexists; reflexivity|].
  destruct (op_total r o cs) as (x & ->). cbn [bind]. destruct (IH (snd x)) as (y & ->). eexists; reflexivity.
Qed.
Lemma register_all_in l : forall r f, In f (register_all r l) -> In f r \/ In f l.
Proof.
  unfold register_all. induction l as [|g l IH]; intros r f I; cbn [fold_left] in I; [auto|].
  apply IH in I as [I|I]; [|cbn; auto]. unfold register in I. destruct (existsb (font_eqb g) r); [auto|].
  apply in_app_iff in I as [I|[I|[]]]; cbn; auto.
Qed.
Lemma drawings_total base ds : all_split -> Forall drawable ds -> forall r cs,
  exists b r' cs', drawings_bytes r base ds cs = Ok (b, r', cs') /\ forall f, In f r' -> In f r \/ exists d, In d ds /\ In f (draw_fonts d base).
Proof.
  intros HY. induction 1 as [|d l D _ IH]; intros r cs; cbn [drawings_bytes]; [eauto 8|].
  destruct (draw_total d base HY D) as (ops & ->). cbn [bind]. destruct (ops_total (register_all r (draw_fonts d base)) ops cs) as (x & ->). cbn [bind].
  destruct (IH (register_all r (draw_fonts d base)) (snd x)) as (b & r' & cs' & -> & R). cbn [bind].
  do 3 eexists. split; [reflexivity|]. intros f I. destruct (R f I) as [I2|(d' & I2 & I3)].
  - apply register_all_in in I2 as [I2|I2]; [auto|]. right. exists d. cbn. auto.
  - right. exists d'. cbn. auto.
Qed.
Lemma page_objects_total base (P : font -> Prop) ys : all_split ->
  Forall (fun y : yielded => Forall drawable (rp_content (snd y)) /\ Forall P (fst y) /\ Forall (fun d => Forall P (draw_fonts d base)) (rp_content (snd y))) ys ->
  forall i r cs, Forall P r -> exists objs r' cs', page_objects base ys i r cs = (objs, Ok (r', cs')) /\ Forall P r' /\ Forall (fun o => finite (snd o)) objs
    /\ List.length objs = 2 * List.length ys.
Proof.
  intros HY. induction 1 as [|[fs p] l (D & P1 & P2) _ IH]; intros i r cs R; cbn [page_objects].
  - do 3 eexists. split; [reflexivity|]. split; [exact R|]. split; [constructor|reflexivity].
  - cbn [fst snd] in *. unfold page_bytes.
    destruct (drawings_total base (rp_content p) HY D (register_all r fs) cs) as (b & r1 & cs1 & -> & RI). cbn [bind].
    destruct (ops_total r1 (rp_extra p) cs1) as (y & ->). cbn [bind].
    destruct (IH (i + 2)%N r1 (snd y)) as (objs & r' & cs' & E & R' & F & LE).
    { apply Forall_forall. intros f I. destruct (RI f I) as [I2|(d & I2 & I3)].
      - apply register_all_in in I2 as [I2|I2]; [rewrite Forall_forall in R; auto|rewrite Forall_forall in P1; auto].
      - rewrite Forall_forall in P2. specialize (P2 d I2). rewrite Forall_forall in P2. auto. }
    rewrite E. cbn [fst snd]. do 3 eexists. split; [reflexivity|]. split; [exact R'|]. split; [|cbn [List.length]; lia].
    constructor; [cbn; tauto|]. constructor; [cbn; tauto|]. exact F.
Qed.
End Draw.

(** ** Font programs *)
Section Fonts.
Context {NUM : Num} {ENV : Env NUM}.
Definition embeddable (t : ttf) : Prop := ttf_dw t <> None /\ forall codes c, (ttf_gid t codes c < 65536)%N.
Lemma subset_total f t m i : embeddable t -> (N.of_nat (List.length (cm_entries m)) < 65535)%N ->
  exists objs, subset_objects f t m i = Ok objs /\ Forall (fun o => finite (snd o)) objs.
Proof.
  intros (DW & G) L. unfold subset_objects. rewrite (proj2 (N.ltb_lt _ _) L). cbn [assert_ bind].
  destruct (mapM_total (fun c => encode_gid (ttf_gid t (map fst (cm_entries m)) c)) (map fst (cm_entries m))) as (gs & E).
  { apply Forall_forall. intros c _. unfold encode_gid. rewrite (proj2 (N.ltb_lt _ _) (G _ c)). eexists; reflexivity. }
  cbn zeta. rewrite E. cbn [bind]. eexists. split; [reflexivity|].
  assert (FI : forall l, Forall finite (map AInt l)) by (intros l; induction l; constructor; cbn; auto).
  repeat match goal with |- Forall (fun o => finite (snd o)) (_ :: _) => constructor | |- Forall _ [] => constructor end; cbn [snd]; try (cbn; tauto).
  - cbn. destruct (ttf_dw t); [|congruence]. repeat (split; [exact I|]). split; [|auto]. split; [exact I|].
    split; [|exact I]. apply finite_arr. rewrite <- (map_map (fun w => ntrunc w) AInt). apply FI.
  - cbn -[map]. repeat (split; [exact I|]). split; [apply finite_arr, FI|]. tauto.
Qed.
Lemma font_objects_total ttf_of cs fs : Forall (fun p => embeddable (ttf_of (fst p)) /\ (N.of_nat (List.length (cm_entries (cs_get cs (fst p)))) < 65535)%N) fs ->
  exists objs, font_objects ttf_of cs fs = (objs, None) /\ Forall (fun o => finite (snd o)) objs.
Proof.
  induction 1 as [|[f i] l (E & L) _ (objs & IH & F)]; cbn [font_objects]; [exists []; auto|].
  cbn [fst] in *. destruct (subset_total f (ttf_of f) (cs_get cs f) i E L) as (o & -> & FO). rewrite IH. cbn [fst snd]. eexists. split; [reflexivity|].
  apply Forall_app. auto.
Qed.
Lemma headers_finite n r first : Forall (fun o => finite (snd o)) (headers n (resources_atom r first)).
Proof.
  unfold headers, catalog. constructor; [cbn; auto|]. constructor; [|constructor; [|constructor]].
  - cbn. split; [exact I|]. split; [|auto]. apply finite_arr. apply Forall_map. apply Forall_forall. cbn. auto.
  - unfold resources_atom. cbn [snd finite]. split; [|exact I]. apply finite_dict.
    unfold font_resources. apply Forall_app. split; apply Forall_map, Forall_forall; cbn; auto.
Qed.
End Fonts.

(** ** Documents *)
Section Doc.
Context {ENV : Env QcNum}.
Variable compress : bytes -> bytes.
(** What is given can be laid out: pages have drawings that can be drawn; automatic
    pages have paragraphs that can be laid out on every page of the template, and after
    them rules and paragraphs laid out by first-fit. *)
Definition can_lay (base : @full QcNum) (i : @ditem QcNum) : Prop :=
  match i with
  | DPage p => Forall drawable (pg_content p)
  | DAuto blocks template => exists ps rest h width,
      blocks = map (@BPara QcNum) ps ++ rest /\ (0 <= h)%Qc /\ (0 < width)%Qc
      /\ room_for h template /\ wide width template /\ Forall (layable h width base) ps /\ Forall (after_rule h width base) rest
      /\ forall n, Forall drawable (pg_content (template n))
  end.
Lemma can_lay_ends base i : all_split -> glyphs_nonneg -> can_lay base i -> item_ends base i.
Proof.
  intros HY GN. destruct i as [p|blocks template]; cbn [can_lay item_ends]; [auto|].
  intros (ps & rest & h & width & -> & H0 & W0 & RF & WD & L & A & _) pnum. eapply blocks_total; eauto.
Qed.
Lemma can_lay_draws base items y : Forall (can_lay base) items -> page_from base items y -> Forall drawable (rp_content (snd y)).
Proof.
  intros C (i & I & _ & p & P & -> & _). rewrite Forall_forall in C. specialize (C i I). destruct i as [q|blocks template].
  - cbn in P. subst. exact C.
  - destruct C as (ps & rest & h & width & _ & _ & _ & _ & _ & _ & _ & D). destruct P as (k & ->). apply D.
Qed.
(** the fonts of an item *)
Definition item_uses (P : font -> Prop) (base : @full QcNum) (i : @ditem QcNum) : Prop :=
  match i with
  | DPage p => Forall (fun d => Forall P (draw_fonts d base)) (pg_content p)
  | DAuto blocks template => Forall (fun b => Forall P (block_fonts b base)) blocks
      /\ forall n, Forall (fun d => Forall P (draw_fonts d base)) (pg_content (template n))
  end.
Lemma item_uses_all base i : item_uses (fun _ => True) base i.
Proof.
  assert (X : forall A (f : A -> list font) (l : list A), Forall (fun d => Forall (fun _ => True) (f d)) l).
  { intros A f l. apply Forall_forall. intros x _. apply Forall_forall. auto. }
  destruct i; cbn; [apply X|]. split; [apply X|intros n; apply X].
Qed.
Lemma uses_pages P base items y : Forall (item_uses P base) items -> page_from base items y ->
  Forall P (fst y) /\ Forall (fun d => Forall P (draw_fonts d base)) (rp_content (snd y)).
Proof.
  intros C (i & I & IN & p & PP & -> & _). rewrite Forall_forall in C. specialize (C i I). destruct i as [q|blocks template].
  - cbn in PP. subst. split; [|exact C]. apply Forall_forall. intros f F. destruct (IN f F).
  - destruct C as (B & T). destruct PP as (k & ->). split; [|apply T]. apply Forall_forall. intros f F. apply IN in F. cbn [item_fonts] in F.
    apply in_flat_map in F as (b & I1 & I2). rewrite Forall_forall in B. specialize (B b I1). rewrite Forall_forall in B. auto.
Qed.
Lemma doc_total ttf_of items base (P : font -> Prop) : all_split -> glyphs_nonneg -> items <> [] -> Forall (can_lay base) items -> Forall (item_uses P base) items ->
  exists n objs pages r cs k, 2 <= List.length objs /\ Forall (fun o => finite (snd o)) objs /\ Forall P r
    /\ (forall fuel, n <= fuel -> page_objects base (fst (pages_gen fuel base items 0)) 4 [] [] = (pages, Ok (r, cs)))
    /\ forall fuel, n <= fuel -> doc_objects fuel ttf_of items base =
        let y := font_objects ttf_of cs (zip_count (subsets_of r) (k + 2) 7) in
        match snd y with
        | Some e => (objs ++ fst y, Raised e)
        | None => (objs ++ fst y ++ headers (N.to_nat ((k - 4) / 2) + 1) (resources_atom r (k + 2)), Finished)
        end.
Proof.
  intros HY GN NE C U.
  destruct (pages_gen_total base items) with (pagenum := 0%Z) as (n & ys & PF & NY & G).
  { eapply Forall_impl; [|exact C]. intros i. apply can_lay_ends; auto. }
  destruct (page_objects_total base P ys HY) with (i := 4%N) (r := @nil font) (cs := @nil (font * cidmap)) as (objs & r & cs & E & R & F & LE).
  { rewrite Forall_forall in PF |- *. intros y I. split; [eapply can_lay_draws; eauto|]. eapply uses_pages; eauto. }
  { constructor. }
  destruct ys as [|y0 ys0] eqn:EY; [exfalso; apply NE; auto|]. rewrite <- EY in *.
  exists n, objs, objs, r, cs, (4 + 2 * N.of_nat (List.length ys0))%N.
  split; [rewrite LE, EY; cbn [List.length]; lia|]. split; [exact F|]. split; [exact R|]. split.
  - intros fuel L. rewrite (G fuel L). exact E.
  - intros fuel L. unfold doc_objects. rewrite (G fuel L). cbn [fst snd]. rewrite E. cbn [fst snd].
    rewrite EY. cbn [List.length]. reflexivity.
Qed.
Lemma standard_uses base i : standard_item base i <-> item_uses (fun f => is_builtin f = true) base i.
Proof. destruct i; reflexivity. Qed.
Lemma no_subsets r : Forall (fun f => is_builtin f = true) r -> subsets_of r = [].
Proof. unfold subsets_of. induction 1 as [|f r B _ IH]; cbn; [reflexivity|]. rewrite B. exact IH. Qed.
Lemma write_total_standard ttf_of items sty fid : all_split -> glyphs_nonneg -> items <> [] ->
  Forall (can_lay (full_or full_default sty)) items -> Forall (standard_item (full_or full_default sty)) items ->
  exists n out, forall fuel, n <= fuel -> write_iter compress fuel ttf_of items sty fid = (out, Finished).
Proof.
  intros HY GN NE C ST. set (base := full_or full_default sty) in *.
  destruct (doc_total ttf_of items base (fun f => is_builtin f = true) HY GN NE C) as (n & objs & pages & r & cs & k & L & F & R & _ & D).
  { eapply Forall_impl; [|exact ST]. intros i. apply standard_uses. }
  rewrite (no_subsets r R) in D. cbn [zip_count font_objects fst snd app] in D.
  destruct (write_gen_total compress fid (objs ++ headers (N.to_nat ((k - 4) / 2) + 1) (resources_atom r (k + 2)))) as (out & E).
  { rewrite app_length. cbn [headers List.length]. lia. }
  { apply Forall_app. split; [exact F|apply headers_finite]. }
  exists n, out. intros fuel LF. unfold write_iter. fold base. rewrite (D fuel LF). exact E.
Qed.
Lemma write_total_embedded ttf_of items sty fid : all_split -> glyphs_nonneg -> items <> [] ->
  Forall (can_lay (full_or full_default sty)) items -> (forall f, embeddable (ttf_of f)) ->
  exists n pages r cs,
   (forall fuel, n <= fuel -> page_objects (full_or full_default sty) (fst (pages_gen fuel (full_or full_default sty) items 0)) 4 [] [] = (pages, Ok (r, cs)))
   /\ ((forall f, In f r -> is_builtin f = false -> (N.of_nat (List.length (cm_entries (cs_get cs f))) < 65535)%N) ->
       exists out, forall fuel, n <= fuel -> write_iter compress fuel ttf_of items sty fid = (out, Finished)).
Proof.
  intros HY GN NE C EM. set (base := full_or full_default sty) in *.
  destruct (doc_total ttf_of items base (fun _ => True) HY GN NE C) as (n & objs & pages & r & cs & k & L & F & _ & PO & D).
  { apply Forall_forall. intros i _. apply item_uses_all. }
  exists n, pages, r, cs. split; [exact PO|]. intros SM.
  destruct (font_objects_total ttf_of cs (zip_count (subsets_of r) (k + 2) 7)) as (fo & FE & FF).
  { apply Forall_forall. intros [f i] I. split; [apply EM|]. cbn [fst].
    assert (J : In f (subsets_of r)) by (rewrite <- (zip_count_fst (subsets_of r) (k + 2) 7); apply (in_map fst) in I; exact I).
    apply filter_In in J as [J1 J2]. apply SM; [exact J1|]. destruct (is_builtin f); [discriminate|reflexivity]. }
  rewrite FE in D. cbn [fst snd] in D.
  destruct (write_gen_total compress fid (objs ++ fo ++ headers (N.to_nat ((k - 4) / 2) + 1) (resources_atom r (k + 2)))) as (out & E).
  { rewrite !app_length. cbn [headers List.length]. lia. }
  { apply Forall_app. split; [exact F|]. apply Forall_app. split; [exact FF|apply headers_finite]. }
  exists out. intros fuel LF. unfold write_iter. fold base. rewrite (D fuel LF). exact E.
Qed.
End Doc.
