(** * WritesTotal: writing a document ends without an exception, in any arithmetic, when the
    numbers in the kerning and in the page sizes are finite. *)
From Coq Require Import String QArith.
From Verif Require Import Base Gfmt Atoms GfmtProofs AtomsProofs FileProofs FontProofs Num Fonts State Style TextSpec StateProofs
  Words WordsSpec WordProofs WordOps Parse Render RenderSpec Firstfit KnuthPlass Optimum Common Draw TextBlock Layout LayoutSpec LayoutProofs LayoutPages
  FontsUsed Document DocumentSpec DocumentProofs ReaderStd Fuel LayoutTotal SuccessProofs SuccessDoc Properties_Words NumbersUsed.
Open Scope nat_scope.
Local Open Scope list_scope.

Section W.
Context {NUM : Num} {ENV : Env NUM}.
(** ** Operators *)
Definition adj (z : num) : Prop := nto_Q z <> None.
Notation any := (fun _ : num => True).
Notation anyc := (fun _ : char => True).
Definition words_finite : list wordlike -> Prop := NumbersUsed.wls_in adj any anyc.
Definition op_writes (o : op) : Prop := match o with OTJ l => Forall (item_in adj any anyc) l | _ => True end.
Definition ops_write (l : list op) : Prop := Forall op_writes l.
Lemma ops_write_in l : NumbersUsed.ops_in adj any anyc l -> ops_write l.
Proof. apply Forall_impl. intros o H. destruct o; cbn in *; auto. Qed.
Fixpoint cmd_any (c : command) : NumbersUsed.cmd_in any c.
Proof.
  destruct c as [| | | | |l]; cbn; auto; try (repeat split; exact Logic.I).
  induction l as [|x l IH]; [exact Logic.I|]. split; [apply cmd_any|exact IH].
Qed.
Lemma psg_any ps : NumbersUsed.psg_in any anyc ps.
Proof. apply Forall_forall. intros p _. split; [apply cmd_any|]. apply Forall_forall. auto. Qed.
Lemma st_any s : NumbersUsed.st_in any s.
Proof. split; [|split; [|split]]; exact Logic.I. Qed.
Lemma tline_write l : words_finite (tl_words l) -> ops_write (tline_ops l).
Proof. intros W. apply ops_write_in, tline_ops_in. split; [apply cmd_any|exact W]. Qed.
Lemma render_writes x y st width ls lead a : Forall (fun l => words_finite (tl_words l)) ls -> ops_write (render_text x y st width ls lead a).
Proof.
  intros L. unfold render_text. constructor; [exact Logic.I|]. constructor; [exact Logic.I|]. apply Forall_app. split.
  { destruct st as [s|]; [|constructor]. constructor; [exact Logic.I|]. constructor; [exact Logic.I|constructor]. }
  apply Forall_app. split; [|constructor; [exact Logic.I|constructor]].
  assert (LF : ops_write (render_left ls lead)).
  { constructor; [exact Logic.I|]. induction L as [|l ls H L IH]; [constructor|]. cbn [flat_map]. apply Forall_app. split; [|exact IH].
    constructor; [exact Logic.I|apply tline_write, H]. }
  destruct a; cbn [render_lines]; try exact LF.
  - generalize width. induction L as [|l ls H L IH]; intros w; cbn [render_centered]; [constructor|]. constructor; [exact Logic.I|].
    apply Forall_app. split; [apply tline_write, H|]. apply IH. inversion LF as [|? ? _ LF']; subst. constructor; [exact Logic.I|].
    cbn [flat_map] in LF'. inversion LF' as [|? ? _ LF2]; subst. apply Forall_app in LF2. apply LF2.
  - generalize width. induction L as [|l ls H L IH]; intros w; cbn [render_right]; [constructor|]. constructor; [exact Logic.I|].
    apply Forall_app. split; [apply tline_write, H|]. apply IH. inversion LF as [|? ? _ LF']; subst. constructor; [exact Logic.I|].
    cbn [flat_map] in LF'. inversion LF' as [|? ? _ LF2]; subst. apply Forall_app in LF2. apply LF2.
Qed.
Definition shape_writes (s : shaped) : Prop := match s with SText ls _ _ _ => Forall (fun l => words_finite (tl_words l)) ls | SRule _ _ _ _ => True end.
Lemma sh_writes s pos width : shape_writes s -> ops_write (sh_ops s pos width).
Proof. destruct s; cbn [sh_ops shape_writes]; [apply render_writes|]. intros _. repeat (constructor; [exact Logic.I|]). constructor. Qed.
Definition col_writes (c : colfill) : Prop := Forall (fun p => shape_writes (snd p)) (cf_blocks c).
Lemma cols_write cs : Forall col_writes cs -> ops_write (flat_map cf_ops cs).
Proof.
  induction 1 as [|c cs H _ IH]; [constructor|]. cbn [flat_map]. apply Forall_app. split; [|exact IH]. unfold cf_ops.
  induction H as [|p l H _ IH2]; [constructor|]. cbn [flat_map]. apply Forall_app. split; [apply sh_writes, H|exact IH2].
Qed.
Lemma item_tj_writes i cs : item_in adj any anyc i -> Forall (fun t => finite (tj_atom t)) (fst (item_tj i cs)).
Proof.
  assert (AF : forall z, adj z -> finite (tj_atom (TAdj z))).
  { intros z A. unfold adj in A. cbn. destruct (nto_Q z); [exact Logic.I|apply A; reflexivity]. }
  destruct i as [s|t st]; cbn [item_in item_tj].
  - intros (_ & K & _). destruct (font_encode _ _ cs) as [b cs']. cbn [fst]. unfold kern_in in K.
    assert (X : forall l w p, Forall (fun e => adj (nneg (snd e))) l -> Forall (fun t => finite (tj_atom t)) (kern_loop b l w p)).
    { induction l as [|[i k] l IH]; intros w p F; cbn [kern_loop]; [constructor; [exact Logic.I|constructor]|]. inversion F; subst.
      constructor; [exact Logic.I|]. constructor; [apply AF; assumption|apply IH; assumption]. }
    unfold encode_kerning. destruct (sl_kern s) as [|[[|i] k] r]; [constructor; [exact Logic.I|constructor]| |apply X, K].
    inversion K; subst. constructor; [apply AF; assumption|apply X; assumption].
  - intros (_ & T). destruct (font_encode _ _ cs) as [b cs']. cbn [fst]. apply Forall_app. split.
    + destruct (ntruthy _); constructor; [apply AF, T|constructor].
    + constructor; [exact Logic.I|constructor].
Qed.
Lemma items_tj_writes l : forall cs, Forall (item_in adj any anyc) l -> Forall (fun t => finite (tj_atom t)) (fst (items_tj l cs)).
Proof.
  induction l as [|i l IH]; intros cs F; cbn [items_tj]; [constructor|]. inversion F as [|? ? F1 F2]; subst.
  pose proof (item_tj_writes i cs F1) as A. destruct (item_tj i cs) as [a cs1]. specialize (IH cs1 F2). destruct (items_tj l cs1) as [b cs2].
  cbn [fst] in *. apply Forall_app. auto.
Qed.
Lemma op_bytes_total r o cs : op_writes o -> exists x, op_bytes r o cs = Ok x.
Proof.
  intros W. destruct o; cbn [op_bytes]; try (eexists; reflexivity). cbn [op_writes] in W. pose proof (items_tj_writes _ cs W) as A.
  destruct (items_tj items cs) as [t cs']. cbn [fst] in A. unfold tj_bytes. destruct (write_total (fun b => b) (AArr (map tj_atom t))) as (b & ->).
  - cbn. apply finite_arr. apply Forall_map. exact A.
  - eexists; reflexivity.
Qed.
Lemma ops_bytes_total r l : forall cs, ops_write l -> exists x, ops_bytes r l cs = Ok x.
Proof.
  induction l as [|o l IH]; intros cs W; cbn [ops_bytes]; [eexists; reflexivity|]. inversion W as [|? ? W1 W2]; subst.
  destruct (op_bytes_total r o cs W1) as (x & ->). cbn [bind]. destruct (IH (snd x) W2) as (y & ->). eexists; reflexivity.
Qed.

(** ** Drawings *)
Definition can_draw (d : drawing) : Prop :=
  match d with
  | DPolyline (p :: r) _ _ _ => (exists a, first_point p = Ok a) /\ Forall (fun q => exists a, other_point q = Ok a) r
  | _ => True
  end.
Hypothesis HY : all_split.
Hypothesis A0 : adj (nneg n0).
Hypothesis AK : forall f a b, adj (nneg (charkern f a b)).
Lemma lines_total gs : forall st, exists ls, text_lines gs st = Ok ls /\ Forall (fun l => words_finite (tl_words l)) ls.
Proof.
  induction gs as [|g r IH]; intros st; cbn [text_lines]; [eexists; split; [reflexivity|constructor]|].
  destruct (C24_words_total _ _ g st HY) as (cmd & ws & ex & E).
  pose proof (NumbersUsed.into_words_in adj any A0 AK anyc HY g st _ (psg_any g) (st_any st) E) as (_ & W). cbn [fst snd] in W.
  rewrite E. cbn [bind]. destruct ex.
  - destruct (IH (match rev ws with w :: _ => wl_state w | [] => st end)) as (ls & -> & F). cbn [bind]. eexists. split; [reflexivity|]. constructor; assumption.
  - eexists. split; [reflexivity|]. constructor; [exact W|constructor].
Qed.
Lemma finish_writes f s b : ops_write (finish f s b).
Proof. unfold finish. destruct f, s, b; repeat (constructor; [exact Logic.I|]); constructor. Qed.
Lemma draw_writes d base : can_draw d -> exists ops, draw_ops d base = Ok ops /\ ops_write ops.
Proof.
  intros D. destruct d as [| | | |pts cl f s|loc c sty a]; cbn [draw_ops].
  - eexists. split; [reflexivity|]. apply Forall_app. split; [repeat (constructor; [exact Logic.I|]); constructor|apply finish_writes].
  - eexists. split; [reflexivity|]. constructor; [exact Logic.I|apply finish_writes].
  - eexists. split; [reflexivity|]. unfold ellipse_ops. cbv zeta. repeat (constructor; [exact Logic.I|]). apply finish_writes.
  - eexists. split; [reflexivity|]. unfold ellipse_ops. cbv zeta. repeat (constructor; [exact Logic.I|]). apply finish_writes.
  - unfold polyline_ops. destruct pts as [|p r]; [eexists; split; [reflexivity|constructor]|]. destruct D as ((a & ->) & D2). cbn [bind].
    destruct (LayoutTotal.mapM_total other_point r D2) as (l & ->). cbn [bind]. eexists. split; [reflexivity|]. constructor; [exact Logic.I|].
    apply Forall_app. split; [|apply finish_writes]. apply Forall_map. apply Forall_forall. intros q _. exact Logic.I.
  - unfold text_ops. destruct (lines_total (splitlines (flatten base sty c)) (as_state base)) as (ls & -> & F). cbn [bind]. eexists. split; [reflexivity|].
    apply render_writes, F.
Qed.
Lemma drawings_write base ds : Forall can_draw ds -> forall r cs,
  exists b r' cs', drawings_bytes r base ds cs = Ok (b, r', cs') /\ forall f, In f r' -> In f r \/ exists d, In d ds /\ In f (draw_fonts d base).
Proof.
  induction 1 as [|d l D _ IH]; intros r cs; cbn [drawings_bytes]; [eauto 8|].
  destruct (draw_writes d base D) as (ops & -> & OW). cbn [bind]. destruct (ops_bytes_total (register_all r (draw_fonts d base)) ops cs OW) as (x & ->). cbn [bind].
  destruct (IH (register_all r (draw_fonts d base)) (snd x)) as (b & r' & cs' & -> & R). cbn [bind].
  do 3 eexists. split; [reflexivity|]. intros f I. destruct (R f I) as [I2|(d' & I2 & I3)].
  - apply register_all_in in I2 as [I2|I2]; [auto|]. right. exists d. cbn. auto.
  - right. exists d'. cbn. auto.
Qed.
Definition page_size_ok (p : xy) : Prop := nto_Q (px p) <> None /\ nto_Q (py p) <> None.
Definition rpage_writes (p : rpage) : Prop := page_size_ok (rp_size p) /\ Forall can_draw (rp_content p) /\ ops_write (rp_extra p).
Lemma pages_write base (P : font -> Prop) ys :
  Forall (fun y : yielded => rpage_writes (snd y) /\ Forall P (fst y) /\ Forall (fun d => Forall P (draw_fonts d base)) (rp_content (snd y))) ys ->
  forall i r cs, Forall P r -> exists objs r' cs', page_objects base ys i r cs = (objs, Ok (r', cs')) /\ Forall P r' /\ Forall (fun o => finite (snd o)) objs
    /\ List.length objs = 2 * List.length ys.
Proof.
  induction 1 as [|[fs p] l (((S1 & S2) & D & X) & P1 & P2) _ IH]; intros i r cs R; cbn [page_objects].
  - do 3 eexists. split; [reflexivity|]. split; [exact R|]. split; [constructor|reflexivity].
  - cbn [fst snd] in *. unfold page_bytes.
    destruct (drawings_write base (rp_content p) D (register_all r fs) cs) as (b & r1 & cs1 & -> & RI). cbn [bind].
    destruct (ops_bytes_total r1 (rp_extra p) cs1 X) as (y & ->). cbn [bind].
    destruct (IH (i + 2)%N r1 (snd y)) as (objs & r' & cs' & E & R' & F & LE).
    { apply Forall_forall. intros f I. destruct (RI f I) as [I2|(d & I2 & I3)].
      - apply register_all_in in I2 as [I2|I2]; [rewrite Forall_forall in R; auto|rewrite Forall_forall in P1; auto].
      - rewrite Forall_forall in P2. specialize (P2 d I2). rewrite Forall_forall in P2. auto. }
    rewrite E. cbn [fst snd]. do 3 eexists. split; [reflexivity|]. split; [exact R'|]. split; [|cbn [List.length]; lia].
    constructor; [|constructor; [cbn; tauto|exact F]]. cbn. destruct (nto_Q (px (rp_size p))); [|congruence]. destruct (nto_Q (py (rp_size p))); [|congruence]. tauto.
Qed.
End W.

(** ** Pages *)
Section P.
Context {NUM : Num} {ENV : Env NUM}.
(** what an item gives: a page, and columns laid out on it *)
Definition gives (base : full) (i : ditem) (p : page drawing) (cols : list colfill) : Prop :=
  match i with
  | DPage q => p = q /\ cols = []
  | DAuto blocks template => (exists k, p = template k) /\ exists fuel pnum pages, auto_pages fuel blocks template base pnum = Ok pages /\ In (p, cols) pages
  end.
Definition given_by (base : full) (items : list ditem) (y : yielded) : Prop :=
  exists i, In i items /\ incl (fst y) (item_fonts base i) /\ exists p cols, gives base i p cols /\ snd y = rpage_of p (flat_map cf_ops cols).
Lemma item_gives base i pnum : item_ends base i ->
  exists n ys, Forall (given_by base [i]) ys /\ ys <> [] /\ forall fuel, n <= fuel -> item_gen fuel base i pnum = (ys, None).
Proof.
  destruct i as [p|blocks template]; cbn [item_ends item_gen].
  - intros _. exists 0, [([], rpage_of p [])]. split; [|split; [discriminate|reflexivity]].
    constructor; [|constructor]. exists (DPage p). split; [cbn; auto|]. split; [intros f []|]. exists p, []. cbn. auto.
  - intros H. destruct (H pnum) as (n & [comp doc'] & E).
    destruct (auto_gen_total base blocks [] _ n comp doc' (E n (le_n n))) as (ys & fs & M & IN & G).
    pose proof (auto_loop_bases _ _ _ _ _ _ (E n (le_n n))) as B. cbn beta in B. cbn [pf_base pf_new] in B.
    set (pages := map (fun p => (pf_base p, pf_done p)) comp ++ [(pf_base (doc' 0), pf_done (doc' 0) ++ pf_todo (doc' 0))]).
    assert (AP : auto_pages n blocks template base pnum = Ok pages).
    { unfold auto_pages. rewrite (E n (le_n n)). reflexivity. }
    eexists n, _. split; [|split; [|intros fuel L; rewrite (G fuel L); cbn [fst snd]; reflexivity]].
    + assert (BF : forall f, In f (concat (map fst ys) ++ fs) -> In f (flat_map (fun b => block_fonts b base) blocks)).
      { intros f I. destruct (IN f I) as [[]|(b & I1 & I2)]. apply in_flat_map. eauto. }
      apply Forall_app. split.
      * apply Forall_forall. intros y I. apply in_map_iff in I as ([fs0 pf] & <- & I). exists (DAuto blocks template).
        split; [cbn; auto|]. cbn [fst snd item_fonts]. split.
        { intros f If. apply BF. apply in_app_iff. left. apply in_concat. exists fs0. split; [|exact If].
          apply in_map_iff. exists (fs0, pf). auto. }
        assert (I2 : In pf comp) by (rewrite <- M; apply in_map_iff; exists (fs0, pf); auto).
        exists (pf_base pf), (pf_done pf). split; [|reflexivity]. split.
        { apply In_nth_error in I2 as (k & NK). specialize (B k). unfold sapp in B. rewrite NK in B. eexists. exact B. }
        exists n, pnum, pages. split; [exact AP|]. apply in_or_app. left. apply in_map_iff. exists pf. auto.
      * constructor; [|constructor]. exists (DAuto blocks template). split; [cbn; auto|]. cbn [fst snd item_fonts]. split.
        { intros f If. apply BF. apply in_app_iff. right. exact If. }
        exists (pf_base (doc' 0)), (pf_done (doc' 0) ++ pf_todo (doc' 0)). split; [|reflexivity]. split.
        { specialize (B (List.length comp)). unfold sapp in B. rewrite (proj2 (nth_error_None _ _) (le_n _)), Nat.sub_diag in B. eexists. exact B. }
        exists n, pnum, pages. split; [exact AP|]. apply in_or_app. right. cbn. auto.
    + intros E0. apply app_eq_nil in E0 as [_ E0]. discriminate.
Qed.
Lemma given_incl base l l' y : incl l l' -> given_by base l y -> given_by base l' y.
Proof. intros I (i & J & K). exists i. split; [apply I, J|exact K]. Qed.
Lemma pages_given base items : Forall (item_ends base) items -> forall pagenum,
  exists n ys, Forall (given_by base items) ys /\ (ys = [] -> items = []) /\ forall fuel, n <= fuel -> pages_gen fuel base items pagenum = (ys, None).
Proof.
  induction 1 as [|i r H _ IH]; intros pagenum; cbn [pages_gen].
  - exists 0, []. split; [constructor|]. auto.
  - destruct (item_gives base i (pagenum + 1)%Z H) as (n1 & ys1 & P1 & NE & G1).
    destruct (IH (pagenum + Z.of_nat (List.length ys1))%Z) as (n2 & ys2 & P2 & _ & G2).
    exists (n1 + n2), (ys1 ++ ys2). split; [|split].
    + apply Forall_app. split; [eapply Forall_impl; [|exact P1]|eapply Forall_impl; [|exact P2]]; intros y; apply given_incl;
        intros x I; cbn in *; tauto.
    + intros E. apply app_eq_nil in E as [E _]. congruence.
    + intros fuel L. rewrite (G1 fuel ltac:(lia)). cbn [fst snd]. rewrite (G2 fuel ltac:(lia)). reflexivity.
Qed.
(** ** Documents *)
Variable compress : bytes -> bytes.
Hypothesis HY : all_split.
Hypothesis A0 : adj (nneg n0).
Hypothesis AK : forall f a b, adj (nneg (charkern f a b)).
Definition page_writes (p : page drawing) : Prop := page_size_ok (pg_size p) /\ Forall can_draw (pg_content p).
Definition item_writes (base : full) (i : ditem) : Prop :=
  item_ends base i /\ forall p cols, gives base i p cols -> page_writes p /\ Forall col_writes cols.
Definition uses_only (P : font -> Prop) (base : full) (i : ditem) : Prop :=
  match i with
  | DPage p => Forall (fun d => Forall P (draw_fonts d base)) (pg_content p)
  | DAuto blocks template => Forall (fun b => Forall P (block_fonts b base)) blocks
      /\ forall n, Forall (fun d => Forall P (draw_fonts d base)) (pg_content (template n))
  end.
Lemma uses_any base i : uses_only (fun _ => True) base i.
Proof.
  assert (X : forall A (f : A -> list font) (l : list A), Forall (fun d => Forall (fun _ => True) (f d)) l).
  { intros A f l. apply Forall_forall. intros x _. apply Forall_forall. auto. }
  destruct i; cbn; [apply X|]. split; [apply X|intros n; apply X].
Qed.
Lemma given_writes P base items y : Forall (item_writes base) items -> Forall (uses_only P base) items -> given_by base items y ->
  rpage_writes (snd y) /\ Forall P (fst y) /\ Forall (fun d => Forall P (draw_fonts d base)) (rp_content (snd y)).
Proof.
  intros W U (i & I & IN & p & cols & GI & ->). rewrite Forall_forall in W, U. specialize (W i I). specialize (U i I).
  destruct W as (_ & W). destruct (W p cols GI) as ((SZ & CD) & CW). split; [split; [exact SZ|split; [exact CD|apply cols_write, CW]]|].
  cbn [rp_content rpage_of]. destruct i as [q|blocks template]; cbn [uses_only gives item_fonts] in *.
  - destruct GI as (-> & _). split; [|exact U]. apply Forall_forall. intros f F. destruct (IN f F).
  - destruct U as (B & T). destruct GI as ((k & ->) & _). split; [|apply T]. apply Forall_forall. intros f F. apply IN in F.
    apply in_flat_map in F as (b & I1 & I2). rewrite Forall_forall in B. specialize (B b I1). rewrite Forall_forall in B. auto.
Qed.
Lemma doc_writes ttf_of items base (P : font -> Prop) : items <> [] -> Forall (item_writes base) items -> Forall (uses_only P base) items ->
  exists n objs pages r cs k, 2 <= List.length objs /\ Forall (fun o => finite (snd o)) objs /\ Forall P r
    /\ (forall fuel, n <= fuel -> page_objects base (fst (pages_gen fuel base items 0)) 4 [] [] = (pages, Ok (r, cs)))
    /\ forall fuel, n <= fuel -> doc_objects fuel ttf_of items base =
        let y := font_objects ttf_of cs (zip_count (subsets_of r) (k + 2) 7) in
        match snd y with
        | Some e => (objs ++ fst y, Raised e)
        | None => (objs ++ fst y ++ headers (N.to_nat ((k - 4) / 2) + 1) (resources_atom r (k + 2)), Finished)
        end.
Proof.
  intros NE C U.
  destruct (pages_given base items) with (pagenum := 0%Z) as (n & ys & PF & NY & G).
  { eapply Forall_impl; [|exact C]. intros i. apply proj1. }
  destruct (pages_write HY A0 AK base P ys) with (i := 4%N) (r := @nil font) (cs := @nil (font * cidmap)) as (objs & r & cs & E & R & F & LE).
  { eapply Forall_impl; [|exact PF]. intros y. apply given_writes; assumption. }
  { constructor. }
  destruct ys as [|y0 ys0] eqn:EY; [exfalso; apply NE; auto|]. rewrite <- EY in *.
  exists n, objs, objs, r, cs, (4 + 2 * N.of_nat (List.length ys0))%N.
  split; [rewrite LE, EY; cbn [List.length]; lia|]. split; [exact F|]. split; [exact R|]. split.
  - intros fuel L. rewrite (G fuel L). exact E.
  - intros fuel L. unfold doc_objects. rewrite (G fuel L). cbn [fst snd]. rewrite E. cbn [fst snd].
    rewrite EY. cbn [List.length]. reflexivity.
Qed.
Lemma writes_standard ttf_of items sty fid : items <> [] -> Forall (item_writes (full_or full_default sty)) items ->
  Forall (uses_only (fun f => is_builtin f = true) (full_or full_default sty)) items ->
  exists n out, forall fuel, n <= fuel -> write_iter compress fuel ttf_of items sty fid = (out, Finished).
Proof.
  intros NE C ST. set (base := full_or full_default sty) in *.
  destruct (doc_writes ttf_of items base (fun f => is_builtin f = true) NE C ST) as (n & objs & pages & r & cs & k & L & F & R & _ & D).
  rewrite (no_subsets r R) in D. cbn [zip_count font_objects fst snd app] in D.
  destruct (write_gen_total compress fid (objs ++ headers (N.to_nat ((k - 4) / 2) + 1) (resources_atom r (k + 2)))) as (out & E).
  { rewrite app_length. cbn [headers List.length]. lia. }
  { apply Forall_app. split; [exact F|apply headers_finite]. }
  exists n, out. intros fuel LF. unfold write_iter. fold base. rewrite (D fuel LF). exact E.
Qed.
Lemma writes_embedded ttf_of items sty fid : items <> [] -> Forall (item_writes (full_or full_default sty)) items -> (forall f, embeddable (ttf_of f)) ->
  exists n pages r cs,
   (forall fuel, n <= fuel -> page_objects (full_or full_default sty) (fst (pages_gen fuel (full_or full_default sty) items 0)) 4 [] [] = (pages, Ok (r, cs)))
   /\ ((forall f, In f r -> is_builtin f = false -> (N.of_nat (List.length (cm_entries (cs_get cs f))) < 65535)%N) ->
       exists out, forall fuel, n <= fuel -> write_iter compress fuel ttf_of items sty fid = (out, Finished)).
Proof.
  intros NE C EM. set (base := full_or full_default sty) in *.
  destruct (doc_writes ttf_of items base (fun _ => True) NE C) as (n & objs & pages & r & cs & k & L & F & _ & PO & D).
  { apply Forall_forall. intros i _. apply uses_any. }
  exists n, pages, r, cs. split; [exact PO|]. intros SM.
  destruct (font_objects_total ttf_of cs (zip_count (subsets_of r) (k + 2) 7)) as (fo & FE & FF).
  { apply Forall_forall. intros [f i] I. split; [apply EM|]. cbn [fst].
    assert (J : In f (subsets_of r)) by (rewrite <- (zip_count_fst (subsets_of r) (k + 2) 7); apply (in_map fst) in I; exact I).
    apply filter_In in J as [J1 J2]. apply SM; [exact J1|]. destruct (is_builtin f); [discriminate|reflexivity]. }
  rewrite FE in D. cbn [fst snd] in D.
  destruct (write_gen_total compress fid (objs ++ fo ++ headers (N.to_nat ((k - 4) / 2) + 1) (resources_atom r (k + 2)))) as (out & E).
  { rewrite !app_length. cbn [headers List.length]. lia. }
  { apply Forall_app. split; [exact F|]. apply Forall_app. split; [exact FF|apply headers_finite]. }
  exists out. intros fuel LF. unfold write_iter. fold base. rewrite (D fuel LF). exact E.
Qed.
End P.
