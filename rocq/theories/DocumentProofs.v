(** * DocumentProofs: pages, fonts and objects of a document. *)
From Coq Require Import String.
From Verif Require Import Base Gfmt Atoms GfmtProofs AtomsProofs FileProofs FontProofs Num Fonts State Style Words Parse Render Firstfit KnuthPlass
  Optimum Common Draw Layout LayoutSpec LayoutPages FontsUsed WordOps Document DocumentSpec.
Local Open Scope list_scope.
Open Scope nat_scope.

Section Pages.
Context {NUM : Num} {ENV : Env NUM}.

(** ** Pages *)
Lemma fill_loop_bases fuel : forall filled doc comp doc', fill_loop fuel filled doc = Ok (comp, doc') ->
  forall k, pf_base (sapp comp doc' k) = pf_base (doc k).
Proof.
  induction fuel as [|fuel IH]; intros filled doc comp doc' E k; [discriminate|]. cbn [fill_loop] in E.
  destruct (skipn (List.length (pf_todo (doc 0))) filled) as [|c r].
  - apply bind_ok in E as (x & R & E). apply Ok_inj in E. injection E as <- <-.
    unfold pf_reopen in R. destruct (rev _) as [|c r]; [discriminate|]. apply Ok_inj in R. subst x.
    destruct k; unfold sapp; cbn; [reflexivity|]. reflexivity.
  - apply bind_ok in E as ((comp1 & doc1) & R & E). cbn [fst snd] in E. apply Ok_inj in E. injection E as <- <-.
    specialize (IH _ _ _ _ R). destruct k; [reflexivity|]. specialize (IH k). unfold sapp in *. cbn [nth_error List.length Nat.sub].
    rewrite IH. reflexivity.
Qed.
Lemma fill_into_bases filled doc comp doc' : fill_into filled doc = Ok (comp, doc') ->
  forall k, pf_base (sapp comp doc' k) = pf_base (doc k).
Proof.
  unfold fill_into. destruct filled as [|c f]; intros E; [|eapply fill_loop_bases; exact E].
  apply Ok_inj in E. injection E as <- <-. intros k. unfold sapp. destruct k; reflexivity.
Qed.
Lemma auto_loop_bases fuel blocks base : forall doc comp doc', auto_loop fuel blocks base doc = Ok (comp, doc') ->
  forall k, pf_base (sapp comp doc' k) = pf_base (doc k).
Proof.
  induction blocks as [|b r IH]; intros doc comp doc' E k; cbn [auto_loop] in E.
  - apply Ok_inj in E. injection E as <- <-. unfold sapp. destruct k; reflexivity.
  - apply bind_ok in E as (cols & C & E). apply bind_ok in E as ((c1 & d1) & F & E).
    apply bind_ok in E as ((c2 & d2) & A & E). cbn [fst snd] in *. apply Ok_inj in E. injection E as <- <-.
    pose proof (fill_into_bases _ _ _ _ F k) as H. rewrite <- H, sapp_app. unfold sapp at 1 3.
    destruct (nth_error c1 k) eqn:E; [reflexivity|]. apply (IH _ _ _ A).
Qed.
(** the pages of an [AutoPage] are based on consecutive templates *)
Lemma auto_pages_bases fuel blocks template base pnum ps : auto_pages fuel blocks template base pnum = Ok ps ->
  ps <> [] /\ map fst ps = map (fun k => template (pnum + Z.of_nat k)%Z) (seq 0 (List.length ps)).
Proof.
  unfold auto_pages. intros E. apply bind_ok in E as ((comp & doc') & A & E). cbn [fst snd] in E.
  apply Ok_inj in E. subst ps. split; [destruct comp; discriminate|].
  rewrite map_app, map_map, app_length, map_length. cbn [map List.length fst].
  pose proof (auto_loop_bases _ _ _ _ _ _ A) as B. cbn beta in B. cbn [pf_base pf_new] in B.
  transitivity (map (fun k => pf_base (sapp comp doc' k)) (seq 0 (List.length comp + 1))).
  - rewrite (map_sapp pf_base comp doc' 1). reflexivity.
  - apply map_ext. exact B.
Qed.
(** [auto_gen] agrees with [auto_loop] *)
Lemma auto_gen_loop fuel base blocks : forall pending doc ys fs doc',
  auto_gen fuel blocks base pending doc = (ys, Ok (fs, doc')) ->
  auto_loop fuel blocks base doc = Ok (map snd ys, doc').
Proof.
  induction blocks as [|b r IH]; intros pending doc ys fs doc' E; cbn [auto_gen] in E; cbn [auto_loop].
  - injection E as <- <- <-. reflexivity.
  - destruct (block_columns fuel b base (flat_todo doc)) as [cols|]; cbn [bind] in E |- *; [|discriminate].
    destruct (fill_into cols doc) as [[comp d1]|]; cbn [bind fst snd] in E |- *; [|discriminate].
    destruct comp as [|p ps].
    + apply IH in E. rewrite E. reflexivity.
    + destruct (auto_gen fuel r base [] d1) as [ys1 e1] eqn:G. cbn [fst snd] in E. injection E as <- ->.
      apply IH in G. rewrite G. cbn [bind fst snd map]. rewrite map_app, map_map. cbn [snd].
      rewrite map_id. reflexivity.
Qed.
Definition rpage_laid (p : laid_page) : rpage := rpage_of (fst p) (snd p).
Lemma item_gen_auto fuel base blocks template pnum ys :
  item_gen fuel base (DAuto blocks template) pnum = (ys, None) ->
  exists ps, auto_pages fuel blocks template base pnum = Ok ps
    /\ map snd ys = map rpage_laid (map (fun p => (fst p, flat_map cf_ops (snd p))) ps).
Proof.
  cbn [item_gen]. set (doc := fun i => _). destruct (auto_gen fuel blocks base [] doc) as [l e] eqn:G. cbn [fst snd].
  destruct e as [[fs doc']|]; [|discriminate]. intros E. injection E as <-.
  unfold auto_pages. fold doc. rewrite (auto_gen_loop _ _ _ _ _ _ _ _ G). cbn [bind fst snd].
  eexists. split; [reflexivity|]. rewrite !map_app, !map_map. cbn [map fst snd]. reflexivity.
Qed.
Lemma pages_laid fuel base items : forall n ys, pages_gen fuel base items (Z.of_nat n) = (ys, None) ->
  exists pages, laid fuel base items n pages /\ map snd ys = map rpage_laid pages.
Proof.
  induction items as [|i r IH]; intros n ys E; cbn [pages_gen] in E.
  - injection E as <-. exists []. split; [constructor|reflexivity].
  - destruct (item_gen fuel base i (Z.of_nat n + 1)) as [l e] eqn:G. cbn [fst snd] in E.
    destruct e; [discriminate|]. destruct (pages_gen fuel base r _) as [l2 e2] eqn:G2. cbn [fst snd] in E. injection E as <- ->.
    replace (Z.of_nat n + Z.of_nat (List.length l))%Z with (Z.of_nat (n + List.length l)) in G2 by lia.
    destruct (IH _ _ G2) as (pages & L & M). destruct i as [p|blocks template].
    + cbn in G. injection G as <-. exists ((p, []) :: pages). split; [constructor; exact L|]. cbn. f_equal. exact M.
    + destruct (item_gen_auto _ _ _ _ _ _ G) as (ps & A & M1).
      replace (Z.of_nat n + 1)%Z with (Z.of_nat (n + 1)) in A by lia.
      assert (List.length l = List.length ps) as LL by (apply (f_equal (@List.length _)) in M1; rewrite !map_length in M1; exact M1).
      rewrite LL in L. exists (map (fun p => (fst p, flat_map cf_ops (snd p))) ps ++ pages).
      split; [econstructor; eassumption|]. rewrite !map_app. f_equal; [exact M1|exact M].
Qed.
Lemma laid_built fuel base items n pages : laid fuel base items n pages ->
  exists counts, Forall2 item_count items counts /\ map fst pages = built_on items counts n.
Proof.
  induction 1 as [n|p items n pages L (cs & F & B)|blocks template items n ps pages A L (cs & F & B)].
  - exists []. split; [constructor|reflexivity].
  - exists (1 :: cs). split; [constructor; [reflexivity|exact F]|]. cbn. f_equal. exact B.
  - exists (List.length ps :: cs). destruct (auto_pages_bases _ _ _ _ _ _ A) as (NE & M).
    split; [constructor; [destruct ps; [congruence|cbn; lia]|exact F]|].
    rewrite map_app, map_map. cbn [fst built_on]. rewrite B. f_equal.
    transitivity (map fst ps); [reflexivity|]. rewrite M. apply map_ext. intros k. f_equal. lia.
Qed.
Lemma laid_nonempty fuel base items n pages : laid fuel base items n pages -> (pages = [] <-> items = []).
Proof.
  induction 1 as [n|p items n pages L IH|blocks template items n ps pages A L IH]; split; try discriminate; auto.
  destruct (auto_pages_bases _ _ _ _ _ _ A) as (NE & _). destruct ps; [congruence|discriminate].
Qed.
Lemma pages_gen_nonempty fuel base items n ys : pages_gen fuel base items (Z.of_nat n) = (ys, None) -> (ys = [] <-> items = []).
Proof.
  intros E. destruct (pages_laid _ _ _ _ _ E) as (pages & L & M). rewrite <- (laid_nonempty _ _ _ _ _ L).
  destruct ys, pages; try discriminate; split; auto; discriminate.
Qed.

(** ** Fonts: every page yielded only uses fonts that were registered *)
Fixpoint declared (G : list font) (l : list yielded) : Prop :=
  match l with
  | [] => True
  | (fs, p) :: r => ops_in (fun f _ => In f (G ++ fs)) (rp_extra p) /\ declared (G ++ fs) r
  end.
Lemma declared_app l1 : forall G l2, declared G (l1 ++ l2) <-> declared G l1 /\ declared (G ++ concat (map fst l1)) l2.
Proof.
  induction l1 as [|[fs p] l1 IH]; intros G l2; cbn [app declared map concat fst].
  - rewrite app_nil_r. tauto.
  - rewrite IH, app_assoc. tauto.
Qed.

(** monotonicity of the predicates of FontsUsed *)
Section Mono.
Variables F F' : font -> num -> Prop.
Hypothesis FF : forall f z, F f z -> F' f z.
Fixpoint cmd_mono (c : command) : cmd_in F c -> cmd_in F' c.
Proof.
  destruct c as [|f z|v|c|h|l]; cbn; auto. induction l as [|x l IH]; [auto|]. intros [A B]. split; [apply cmd_mono, A|apply IH, B].
Qed.
Lemma slug_mono s : slug_in F s -> slug_in F' s.
Proof. intros [A B]. split; [apply FF, A|exact B]. Qed.
Lemma op_mono o : op_in F o -> op_in F' o.
Proof.
  destruct o; cbn; auto. intros A. eapply Forall_impl; [|exact A].
  intros [s|x st] H; [apply slug_mono, H|apply FF, H].
Qed.
Lemma ops_mono l : ops_in F l -> ops_in F' l.
Proof. apply Forall_impl, op_mono. Qed.
Lemma box_mono b : box_in F b -> box_in F' b.
Proof.
  destruct b as [s|segs st]; cbn; [apply slug_mono|]. intros [A B]. split; [|apply FF, B].
  eapply Forall_impl; [|exact A]. intros [s c] [H1 H2]. split; [apply slug_mono, H1|apply cmd_mono, H2].
Qed.
Lemma wl_mono w : wl_in F w -> wl_in F' w.
Proof.
  induction w as [b|w|w IH c]; cbn; [apply box_mono| |intros [A B]; split; [apply IH, A|apply cmd_mono, B]].
  intros [A B]. split; [|apply FF, B]. eapply Forall_impl; [apply box_mono|exact A].
Qed.
Lemma col_mono c : col_in F c -> col_in F' c.
Proof.
  unfold col_in. apply Forall_impl. intros [pos s]. destruct s as [ls lead a h|]; cbn; [|auto].
  apply Forall_impl. intros l [A B]. split; [apply cmd_mono, A|]. eapply Forall_impl; [apply wl_mono|exact B].
Qed.
End Mono.
Definition reg (G : list font) : font -> num -> Prop := fun f _ => In f G.
Lemma reg_app G H c : col_in (reg G) c -> col_in (reg (G ++ H)) c.
Proof. apply col_mono. intros f z I. apply in_or_app. left. exact I. Qed.
Lemma fill_loop_all K fuel : forall filled doc comp doc', Forall K filled -> (forall k, page_all K (doc k)) ->
  fill_loop fuel filled doc = Ok (comp, doc') -> Forall (page_all K) comp /\ forall k, page_all K (doc' k).
Proof.
  induction fuel as [|fuel IH]; intros filled doc comp doc' F D E; [discriminate|]. cbn [fill_loop] in E.
  set (p := doc 0) in *. set (n := List.length (pf_todo p)) in *.
  assert (P : page_all K (mkPF (pf_base p) (skipn (List.length (firstn n filled)) (pf_todo p)) (pf_done p ++ firstn n filled))).
  { unfold page_all. cbn [pf_done pf_todo]. specialize (D 0). fold p in D. unfold page_all in D. apply Forall_app in D as [D1 D2].
    apply Forall_app. split; [apply Forall_app; split; [exact D1|apply firstn_in, F]|apply skipn_in, D2]. }
  destruct (skipn n filled) as [|c r] eqn:S.
  - apply bind_ok in E as (x & R & E). apply Ok_inj in E. injection E as <- <-. split; [constructor|].
    intros [|k]; [|apply (D (1 + k))]. cbn [scons]. unfold pf_reopen in R. cbn [pf_done pf_todo pf_base] in R.
    destruct (rev (pf_done p ++ firstn n filled)) as [|c r] eqn:RV; [discriminate|]. apply Ok_inj in R. subst x.
    unfold page_all in *. cbn [pf_done pf_todo] in *. apply (f_equal (@rev _)) in RV. rewrite rev_involutive in RV. cbn [rev] in RV.
    rewrite RV, <- app_assoc in P. exact P.
  - apply bind_ok in E as ((comp1 & doc1) & R & E). cbn [fst snd] in E. apply Ok_inj in E. injection E as <- <-.
    rewrite <- S in R. destruct (IH _ _ _ _ (skipn_in K n _ F) (fun k => D (1 + k)) R) as (A & B). split; [constructor; [exact P|exact A]|exact B].
Qed.
Lemma fill_into_all K filled doc comp doc' : Forall K filled -> (forall k, page_all K (doc k)) ->
  fill_into filled doc = Ok (comp, doc') -> Forall (page_all K) comp /\ forall k, page_all K (doc' k).
Proof.
  unfold fill_into. intros F D E. destruct filled; [|eapply fill_loop_all; eassumption].
  apply Ok_inj in E. injection E as <- <-. split; [constructor|exact D].
Qed.
Lemma flat_todo_all (K : colfill -> Prop) doc : K no_col -> (forall k, page_all K (doc k)) -> forall i, K (flat_todo doc i).
Proof.
  intros N D i. unfold flat_todo. match goal with |- K (nth _ ?l _) => destruct (nth_in_or_default i l no_col) as [I| ->]; [|exact N] end.
  apply in_concat in I as (l & I1 & I2). apply in_map_iff in I1 as (k & <- & _). specialize (D k). unfold page_all in D.
  apply Forall_app in D as [_ D]. rewrite Forall_forall in D. apply D, I2.
Qed.
Definition auto_page (y : list font * pagefill) : yielded :=
  (fst y, rpage_of (pf_base (snd y)) (flat_map cf_ops (pf_done (snd y)))).
Lemma page_done_fonts G p : page_all (col_in (reg G)) p ->
  ops_in (reg G) (flat_map cf_ops (pf_done p)) /\ ops_in (reg G) (flat_map cf_ops (pf_done p ++ pf_todo p)).
Proof.
  intros P. split; apply cols_ops_in; [|exact P]. unfold page_all in P. apply Forall_app in P as [P _]. exact P.
Qed.
Lemma more_pages G ps : Forall (page_all (col_in (reg G))) ps -> declared G (map auto_page (map (pair []) ps)).
Proof.
  induction 1 as [|p ps P _ IH]; [exact I|]. cbn [map declared auto_page fst snd]. rewrite app_nil_r. split; [|exact IH].
  apply (page_done_fonts G p P).
Qed.
Lemma auto_gen_declared fuel base blocks : forall pending doc ys e G,
  (forall k, page_all (col_in (reg (G ++ pending))) (doc k)) -> auto_gen fuel blocks base pending doc = (ys, e) ->
  declared G (map auto_page ys)
  /\ match e with
     | Err _ => True
     | Ok (fs, doc') => forall k, page_all (col_in (reg (G ++ concat (map fst ys) ++ fs))) (doc' k)
     end.
Proof.
  induction blocks as [|b r IH]; intros pending doc ys e G D E; cbn [auto_gen] in E.
  - injection E as <- <-. split; [exact I|]. cbn [map concat app]. exact D.
  - destruct (block_columns fuel b base (flat_todo doc)) as [cols|] eqn:C; cbn [bind] in E; [|injection E as <- <-; split; exact I].
    destruct (fill_into cols doc) as [[comp d1]|] eqn:FI; [|injection E as <- <-; split; exact I].
    set (H := pending ++ block_fonts b base) in *.
    assert (D' : forall k, page_all (col_in (reg (G ++ H))) (doc k)).
    { intros k. unfold H. rewrite app_assoc. eapply Forall_impl; [|apply D]. intros c. apply reg_app. }
    assert (CC : Forall (col_in (reg (G ++ H))) cols).
    { eapply (block_columns_in (fun f => In f (G ++ H))); [|  |exact C].
      - intros f I. unfold reg, H. apply in_or_app. right. apply in_or_app. right. exact I.
      - intros i. apply flat_todo_all; [constructor|exact D']. }
    destruct (fill_into_all _ _ _ _ _ CC D' FI) as (P1 & P2).
    destruct comp as [|p ps].
    + apply (IH _ _ _ _ G P2 E).
    + destruct (auto_gen fuel r base [] d1) as [ys1 e1] eqn:A. cbn [fst snd] in E. injection E as <- <-.
      inversion P1 as [|? ? Q1 Q2]; subst.
      destruct (IH [] d1 ys1 e1 (G ++ H)) as (R1 & R2); [rewrite app_nil_r; exact P2|exact A|].
      assert (Z : concat (map fst (map (pair (@nil font)) ps)) = []) by (clear; induction ps; cbn; auto).
      split.
      * cbn [map declared auto_page fst snd]. split; [apply (page_done_fonts (G ++ H) p Q1)|].
        rewrite map_app. apply declared_app. split; [apply more_pages, Q2|].
        replace (map fst (map auto_page (map (pair []) ps))) with (map fst (map (pair (@nil font)) ps)).
        2: { rewrite !map_map. apply map_ext. reflexivity. }
        rewrite Z, app_nil_r. exact R1.
      * destruct e1 as [[fs doc']|]; [|exact I]. intros k. cbn [map concat fst]. rewrite map_app, concat_app, Z.
        cbn [app]. rewrite <- !app_assoc in *. apply R2.
Qed.
Lemma item_declared fuel base i pnum G : declared G (fst (item_gen fuel base i pnum)).
Proof.
  destruct i as [p|blocks template]; cbn [item_gen].
  - cbn. split; [constructor|exact I].
  - set (doc := fun i => _). destruct (auto_gen fuel blocks base [] doc) as [ys e] eqn:A. cbn [fst snd].
    assert (D : forall k, page_all (col_in (reg (G ++ []))) (doc k)).
    { intros k. unfold page_all, doc, pf_new. cbn [pf_done pf_todo app]. apply Forall_forall. intros c I.
      apply in_map_iff in I as (x & <- & _). constructor. }
    destruct (auto_gen_declared _ _ _ _ _ _ _ G D A) as (R1 & R2). fold auto_page.
    destruct e as [[fs doc']|]; [|exact R1]. cbn [fst]. apply declared_app. split; [exact R1|].
    cbn [declared rp_extra rpage_of]. split; [|exact I]. specialize (R2 0).
    assert (Z : map fst ys = map fst (map auto_page ys)) by (rewrite map_map; apply map_ext; reflexivity).
    rewrite app_assoc, Z in R2. apply (page_done_fonts _ _ R2).
Qed.
Lemma pages_declared fuel base items : forall n G, declared G (fst (pages_gen fuel base items n)).
Proof.
  induction items as [|i r IH]; intros n G; cbn [pages_gen]; [exact I|].
  pose proof (item_declared fuel base i (n + 1)%Z) as D. destruct (item_gen fuel base i (n + 1)%Z) as [l e]. cbn [fst snd] in *.
  destruct e; [apply D|]. cbn [fst]. apply declared_app. split; [apply D|apply IH].
Qed.

(** ** The registry only grows *)
Lemma register_app r f : exists x, register r f = r ++ x.
Proof. unfold register. destruct (existsb _ r); [exists []; rewrite app_nil_r|exists [f]]; reflexivity. Qed.
Lemma register_in r f : In f (register r f).
Proof.
  unfold register. destruct (existsb (font_eqb f) r) eqn:E.
  - apply existsb_exists in E as (g & I & E). apply font_eqb_eq in E. subst. exact I.
  - apply in_or_app. right. left. reflexivity.
Qed.
Lemma register_all_app fs : forall r, exists x, register_all r fs = r ++ x /\ forall f, In f fs -> In f (r ++ x).
Proof.
  induction fs as [|g fs IH]; intros r.
  - exists []. split; [cbn; rewrite app_nil_r; reflexivity|intros f []].
  - destruct (register_app r g) as (x & E). destruct (IH (register r g)) as (y & E2 & I2). exists (x ++ y).
    unfold register_all in *. cbn [fold_left]. rewrite E2, E, <- app_assoc. split; [reflexivity|].
    intros f [<-|I]; [|rewrite app_assoc, <- E; apply I2, I].
    pose proof (register_in r g) as I. rewrite E in I. rewrite app_assoc. apply in_or_app. left. exact I.
Qed.
Lemma register_nodup r f : NoDup r -> NoDup (register r f).
Proof.
  intros N. unfold register. destruct (existsb (font_eqb f) r) eqn:E; [exact N|].
  apply Permutation.Permutation_NoDup with (l := f :: r); [apply Permutation.Permutation_cons_append|].
  constructor; [|exact N]. intros I. assert (existsb (font_eqb f) r = true) by (apply existsb_exists; exists f; split; [exact I|apply font_eqb_refl]).
  congruence.
Qed.
Lemma register_all_nodup fs : forall r, NoDup r -> NoDup (register_all r fs).
Proof. induction fs as [|f fs IH]; intros r N; [exact N|]. apply IH, register_nodup, N. Qed.
Lemma index_of_app f l x : In f l -> index_of f (l ++ x) = index_of f l.
Proof.
  induction l as [|g l IH]; intros I; [destruct I|]. cbn. destruct (font_eqb f g) eqn:E; [reflexivity|].
  rewrite IH; [reflexivity|]. destruct I as [->|I]; [rewrite font_eqb_refl in E; discriminate|exact I].
Qed.
Lemma font_id_app r x f : In f r -> font_id (r ++ x) f = font_id r f.
Proof.
  intros I. unfold font_id. destruct (f_face f) as [b|] eqn:E; [reflexivity|].
  unfold subsets_of. rewrite filter_app, index_of_app; [reflexivity|]. apply filter_In. split; [exact I|].
  unfold is_builtin. rewrite E. reflexivity.
Qed.
Lemma ops_bytes_app r x l : forall cs, ops_in (fun f _ => In f r) l -> ops_bytes (r ++ x) l cs = ops_bytes r l cs.
Proof.
  induction l as [|o l IH]; intros cs F; [reflexivity|]. inversion F as [|? ? F1 F2]; subst.
  cbn [ops_bytes]. assert (op_bytes (r ++ x) o cs = op_bytes r o cs) as ->.
  { destruct o; try reflexivity. cbn [op_bytes]. cbn in F1. rewrite font_id_app by assumption. reflexivity. }
  destruct (op_bytes r o cs) as [y|]; [|reflexivity]. cbn [bind]. rewrite IH by exact F2. reflexivity.
Qed.
Lemma ops_bytes_cat r l1 l2 cs b1 cs1 b2 cs2 : ops_bytes r l1 cs = Ok (b1, cs1) -> ops_bytes r l2 cs1 = Ok (b2, cs2) ->
  ops_bytes r (l1 ++ l2) cs = Ok (b1 ++ b2, cs2).
Proof.
  revert cs b1. induction l1 as [|o l1 IH]; intros cs b1 E1 E2; cbn [ops_bytes app] in *.
  - apply Ok_inj in E1. injection E1 as <- <-. exact E2.
  - apply bind_ok in E1 as (x & X & E1). apply bind_ok in E1 as ((b & c) & Y & E1). cbn [fst snd] in E1. apply Ok_inj in E1. injection E1 as <- <-.
    rewrite X. cbn [bind]. rewrite (IH _ _ Y E2). reflexivity.
Qed.

(** ** The streams of the pages *)
Lemma drawings_bytes_spec base ds : forall r cs b R cs', drawings_bytes r base ds cs = Ok (b, R, cs') ->
  (exists x, R = r ++ x) /\ (NoDup r -> NoDup R) /\ exists l, mapM (fun d => draw_ops d base) ds = Ok l
    /\ ops_in (fun f _ => In f R) (concat l) /\ ops_bytes R (concat l) cs = Ok (b, cs').
Proof.
  induction ds as [|d ds IH]; intros r cs b R cs' E; cbn [drawings_bytes] in E.
  - apply Ok_inj in E. injection E as <- <- <-. split; [exists []; rewrite app_nil_r; reflexivity|]. split; [auto|].
    exists []. split; [reflexivity|]. split; [constructor|reflexivity].
  - apply bind_ok in E as (ops & D & E). apply bind_ok in E as ((b1 & cs1) & O & E). apply bind_ok in E as (((b2 & r2) & cs2) & Y & E).
    cbn [fst snd] in *. apply Ok_inj in E. injection E as <- <- <-.
    destruct (register_all_app (draw_fonts d base) r) as (x & EX & IX). rewrite EX in *.
    destruct (IH _ _ _ _ _ Y) as ((y & ->) & ND & l & M & F & B).
    assert (FD : ops_in (fun f _ => In f (r ++ x)) ops) by (eapply draw_ops_in; [exact IX|exact D]).
    split; [exists (x ++ y); rewrite app_assoc; reflexivity|]. split.
    { intros N. apply ND. rewrite <- EX. apply register_all_nodup, N. }
    exists (ops :: l). cbn [mapM]. rewrite D. cbn [bind]. rewrite M. split; [reflexivity|]. cbn [concat].
    split.
    + apply ops_in_app. split; [|exact F]. eapply ops_mono; [|exact FD]. intros f z I. apply in_or_app. left. exact I.
    + eapply ops_bytes_cat; [|exact B]. rewrite ops_bytes_app by exact FD. exact O.
Qed.
(** the streams of the pages (with the code tables before and after each) *)
Inductive streams (R : list font) (base : full) : list laid_page -> cstate -> list (list bytes) -> cstate -> Prop :=
| streams_nil cs : streams R base [] cs [] cs
| streams_cons p pages cs ops b cs1 bs cs2 :
    page_ops base p = Ok ops -> ops_in (fun f _ => In f R) ops -> ops_bytes R ops cs = Ok (b, cs1) ->
    streams R base pages cs1 bs cs2 -> streams R base (p :: pages) cs (b :: bs) cs2.
Fixpoint page_objs (pages : list laid_page) (bs : list (list bytes)) (i : N) : list (N * atom) :=
  match pages, bs with
  | p :: r, b :: l => (i, page_dict (rpage_laid p) i) :: ((i + 1)%N, AStream b []) :: page_objs r l (i + 2)
  | _, _ => []
  end.
Lemma in_app_l {A} (x : A) l r : In x l -> In x (l ++ r). Proof. intros; apply in_or_app; auto. Qed.
Lemma page_objects_spec base ys : forall pages i r cs objs R cs' G, map snd ys = map rpage_laid pages ->
  page_objects base ys i r cs = (objs, Ok (R, cs')) -> declared G ys -> incl G r ->
  (exists x, R = r ++ x) /\ (NoDup r -> NoDup R)
  /\ exists bs, streams R base pages cs bs cs' /\ objs = page_objs pages bs i.
Proof.
  induction ys as [|[fs rp] ys IH]; intros pages i r cs objs R cs' G M E D IN.
  - destruct pages; [|discriminate]. cbn in E. injection E as <- <- <-. split; [exists []; rewrite app_nil_r; reflexivity|].
    split; [auto|]. exists []. split; [constructor|reflexivity].
  - destruct pages as [|p pages]; [discriminate|]. cbn [map snd] in M. injection M as -> M. cbn [page_objects] in E.
    destruct (page_bytes (register_all r fs) base (rpage_laid p) cs) as [[[b r1] cs1]|] eqn:B; [|discriminate].
    destruct (page_objects base ys (i + 2) r1 cs1) as [os e] eqn:P. cbn [fst snd] in E. injection E as <- ->.
    cbn [declared] in D. destruct D as [D1 D2].
    destruct (register_all_app fs r) as (x & EX & IX). rewrite EX in B.
    unfold page_bytes in B. apply bind_ok in B as (((b1 & r2) & cs2) & B1 & B). apply bind_ok in B as ((b2 & cs3) & B2 & B). cbn [fst snd] in B.
    apply Ok_inj in B. injection B as <- <- <-.
    destruct (drawings_bytes_spec _ _ _ _ _ _ _ B1) as ((y & ->) & ND & l & DM & F & OB).
    assert (INx : incl (G ++ fs) ((r ++ x) ++ y)).
    { intros f I. apply in_or_app. left. apply in_app_or in I as [I|I]; [apply in_app_l, IN, I|apply IX, I]. }
    destruct (IH pages _ _ _ _ _ _ _ M P D2 INx) as ((z & ->) & ND2 & bs & S & EO).
    split; [exists (x ++ y ++ z); rewrite !app_assoc; reflexivity|]. split.
    { intros N. apply ND2, ND. rewrite <- EX. apply register_all_nodup, N. }
    assert (FE : ops_in (fun f _ => In f ((r ++ x) ++ y)) (snd p)).
    { cbn [rpage_laid rp_extra rpage_of] in D1. eapply ops_mono; [|exact D1]. intros f ? I. apply INx, I. }
    exists ((b1 ++ b2) :: bs). split; [|cbn [page_objs]; f_equal; f_equal; exact EO].
    econstructor; [| | |exact S].
    + unfold page_ops. cbn [rpage_laid rp_content rpage_of] in DM. rewrite DM. reflexivity.
    + eapply ops_mono; [intros f ? I; apply in_app_l, I|]. apply ops_in_app. split; [exact F|exact FE].
    + rewrite ops_bytes_app by (apply ops_in_app; split; [exact F|exact FE]).
      eapply ops_bytes_cat; [exact OB|exact B2].
Qed.

(** ** All objects *)
Definition embeds (ttf_of : font -> ttf) (cs : cstate) (p : font * N) (os : list (N * atom)) : Prop :=
  subset_objects (fst p) (ttf_of (fst p)) (cs_get cs (fst p)) (snd p) = Ok os.
Lemma font_objects_spec ttf_of cs l : forall objs, font_objects ttf_of cs l = (objs, None) ->
  exists os, Forall2 (embeds ttf_of cs) l os /\ objs = concat os.
Proof.
  induction l as [|[f i] l IH]; intros objs E; cbn [font_objects] in E.
  - injection E as <-. exists []. split; [constructor|reflexivity].
  - destruct (subset_objects f (ttf_of f) (cs_get cs f) i) as [o|] eqn:S; [|discriminate].
    destruct (font_objects ttf_of cs l) as [x e] eqn:F. cbn [fst snd] in E. injection E as <- ->.
    destruct (IH _ eq_refl) as (os & A & ->). exists (o :: os). split; [constructor; [exact S|exact A]|reflexivity].
Qed.
Definition first_font_id (n : nat) : N := N.of_nat (4 + 2 * n).
Record finished (fuel : nat) (ttf_of : font -> ttf) (items : list ditem) (base : full) (objs : list (N * atom))
       (pages : list laid_page) (R : list font) (cs : cstate) (bs : list (list bytes)) (fos : list (list (N * atom))) : Prop := {
  fi_laid : laid fuel base items 0 pages;
  fi_some : pages <> [];
  fi_nodup : NoDup R;
  fi_streams : streams R base pages [] bs cs;
  fi_fonts : Forall2 (embeds ttf_of cs) (zip_count (subsets_of R) (first_font_id (List.length pages)) 7) fos;
  fi_objs : objs = page_objs pages bs 4 ++ concat fos
                   ++ headers (List.length pages) (resources_atom R (first_font_id (List.length pages))) }.
Lemma doc_finished fuel ttf_of items base objs : doc_objects fuel ttf_of items base = (objs, Finished) ->
  exists pages R cs bs fos, finished fuel ttf_of items base objs pages R cs bs fos.
Proof.
  unfold doc_objects. pose proof (pages_declared fuel base items 0 []) as D.
  destruct (pages_gen fuel base items 0) as [ys e] eqn:P. cbn [fst snd] in *.
  destruct (page_objects base ys 4 [] []) as [po e2] eqn:O. cbn [fst snd] in *.
  destruct e2 as [[R cs]|]; [|discriminate]. destruct e; [discriminate|].
  destruct (pages_laid fuel base items 0 ys P) as (pages & L & M).
  destruct (page_objects_spec base ys pages _ _ _ _ _ _ [] M O D ltac:(intros ? [])) as (_ & ND & bs & ST & ->).
  assert (LL : List.length ys = List.length pages) by (apply (f_equal (@List.length _)) in M; rewrite !map_length in M; exact M).
  rewrite LL. destruct (List.length pages) as [|n] eqn:NP; [discriminate|].
  replace (4 + 2 * N.of_nat n + 2)%N with (first_font_id (S n)) by (unfold first_font_id; lia).
  destruct (font_objects ttf_of cs _) as [fo e3] eqn:F. cbn [fst snd]. destruct e3; [discriminate|].
  destruct (font_objects_spec _ _ _ _ F) as (fos & FF & ->). intros E. injection E as <-.
  exists pages, R, cs, bs, fos. constructor; rewrite ?NP; auto.
  - intros ->. discriminate.
  - apply ND. constructor.
  - replace (N.to_nat ((4 + 2 * N.of_nat n - 4) / 2) + 1) with (S n); [reflexivity|].
    replace (4 + 2 * N.of_nat n - 4)%N with (N.of_nat n * 2)%N by lia. rewrite N.div_mul by lia. lia.
Qed.
Lemma streams_length R base pages cs bs cs' : streams R base pages cs bs cs' -> List.length bs = List.length pages.
Proof. induction 1; cbn; congruence. Qed.
Lemma count_up_app a m n : count_up a (m + n) = count_up a m ++ count_up (a + m) n.
Proof. unfold count_up. rewrite seq_app, map_app. reflexivity. Qed.
Lemma page_objs_ids pages : forall bs i, List.length bs = List.length pages ->
  map fst (page_objs pages bs (N.of_nat i)) = count_up i (2 * List.length pages).
Proof.
  induction pages as [|p pages IH]; intros [|b bs] i L; try discriminate; [reflexivity|].
  cbn [List.length] in *. replace (2 * S (List.length pages)) with (2 + 2 * List.length pages) by lia.
  rewrite count_up_app. cbn [page_objs map fst app]. replace (N.of_nat i + 2)%N with (N.of_nat (i + 2)) by lia.
  rewrite (IH bs (i + 2)) by lia. unfold count_up at 2. cbn [seq map app]. do 2 f_equal. lia.
Qed.
Lemma subset_ids f t m i os : subset_objects f t m (N.of_nat i) = Ok os -> map fst os = count_up i 7.
Proof.
  unfold subset_objects. intros E. apply bind_ok in E as (u & _ & E). apply bind_ok in E as (g & _ & E). apply Ok_inj in E. subst os.
  unfold count_up. cbn [map fst seq]. repeat match goal with |- _ :: _ = _ :: _ => apply f_equal2; [lia|] end. reflexivity.
Qed.
Lemma font_objs_ids ttf_of cs fs : forall i fos, Forall2 (embeds ttf_of cs) (zip_count fs (N.of_nat i) 7) fos ->
  map fst (concat fos) = count_up i (7 * List.length fs).
Proof.
  induction fs as [|f fs IH]; intros i fos H; cbn [zip_count] in H; inversion H as [|? os ? fos' H1 H2]; subst; [reflexivity|].
  cbn [concat List.length]. replace (7 * S (List.length fs)) with (7 + 7 * List.length fs) by lia. rewrite count_up_app, map_app.
  f_equal; [apply (subset_ids _ _ _ _ _ H1)|]. apply IH. replace (N.of_nat (i + 7)) with (N.of_nat i + 7)%N by lia. exact H2.
Qed.
Definition main_count (pages : list laid_page) (R : list font) : nat := 2 * List.length pages + 7 * List.length (subsets_of R).
Lemma main_ids fuel ttf_of items base objs pages R cs bs fos : finished fuel ttf_of items base objs pages R cs bs fos ->
  map fst (page_objs pages bs 4 ++ concat fos) = count_up 4 (main_count pages R).
Proof.
  intros [_ _ _ S FF _]. unfold main_count. rewrite map_app, count_up_app. f_equal.
  - change 4%N with (N.of_nat 4). apply page_objs_ids, (streams_length _ _ _ _ _ _ S).
  - apply (font_objs_ids _ _ _ _ _ FF).
Qed.
Lemma all_ids fuel ttf_of items base objs pages R cs bs fos : finished fuel ttf_of items base objs pages R cs bs fos ->
  map fst objs = count_up 4 (main_count pages R) ++ [1; 2; 3]%N.
Proof.
  intros H. rewrite <- (main_ids _ _ _ _ _ _ _ _ _ _ H). destruct H as [_ _ _ _ _ ->]. rewrite app_assoc, map_app. reflexivity.
Qed.
Lemma count_up_in i a n : In i (count_up a n) <-> (N.of_nat a <= i < N.of_nat (a + n))%N.
Proof.
  unfold count_up. rewrite in_map_iff. split.
  - intros (k & <- & I). apply in_seq in I. lia.
  - intros H. exists (N.to_nat i). split; [lia|]. apply in_seq. lia.
Qed.
Lemma count_up_nodup a n : NoDup (count_up a n).
Proof. unfold count_up. apply FinFun.Injective_map_NoDup; [intros x y E; lia|apply seq_NoDup]. Qed.
Lemma ids_nodup n : NoDup (count_up 4 n ++ [1; 2; 3]%N).
Proof.
  apply (Permutation.Permutation_NoDup (l := [1; 2; 3]%N ++ count_up 4 n)); [apply Permutation.Permutation_app_comm|].
  cbn [app]. repeat (constructor; [cbn [In]; rewrite count_up_in; lia|]). apply count_up_nodup.
Qed.
Lemma nodup_fst_object objs i a : NoDup (map fst objs) -> In (i, a) objs -> object objs i a.
Proof.
  intros N I. split; [exact I|]. intros b J. induction objs as [|[j c] objs IH]; [destruct I|].
  cbn in N. inversion N as [|? ? N1 N2]; subst. destruct I as [I|I], J as [J|J].
  - congruence.
  - injection I as -> ->. exfalso. apply N1. apply (in_map fst) in J. exact J.
  - injection J as -> ->. exfalso. apply N1. apply (in_map fst) in I. exact I.
  - auto.
Qed.

(** ** References *)
Lemma page_objs_refs pages : forall bs i o t, List.length bs = List.length pages -> In o (page_objs pages bs i) -> In t (refs (snd o)) ->
  t = 2%N \/ t = 3%N \/ In t (map fst (page_objs pages bs i)).
Proof.
  induction pages as [|p pages IH]; intros [|b bs] i o t L I T; try discriminate; [destruct I|].
  cbn [page_objs] in *. destruct I as [<-|[<-|I]].
  - cbn in T. destruct T as [<-|[<-|[<-|[]]]]; cbn; auto.
  - destruct T.
  - cbn in L. destruct (IH bs (i + 2)%N o t ltac:(lia) I T) as [->|[->|H]]; cbn; auto.
Qed.
Lemma flat_map_nil {A B} (f : A -> list B) l : (forall x, In x l -> f x = []) -> flat_map f l = [].
Proof. induction l as [|x l IH]; intros H; [reflexivity|]. cbn. rewrite H, IH by (try (left; reflexivity); intros; apply H; right; assumption). reflexivity. Qed.
Lemma subset_refs f t m i os o x : subset_objects f t m i = Ok os -> In o os -> In x (refs (snd o)) -> In x (map fst os).
Proof.
  unfold subset_objects. intros E. apply bind_ok in E as (u & _ & E). apply bind_ok in E as (g & _ & E). apply Ok_inj in E. subst os.
  intros I X. cbn [In] in I. cbn [map fst].
  destruct I as [<-|[<-|[<-|[<-|[<-|[<-|[<-|[]]]]]]]]; cbn in X.
  - destruct X as [<-|[<-|[]]]; cbn; auto 10.
  - rewrite flat_map_nil in X by (intros y Y; apply in_map_iff in Y as (z & <- & _); reflexivity). cbn in X. destruct X as [<-|[<-|[<-|[]]]]; cbn; auto 10.
  - destruct X.
  - destruct X.
  - rewrite flat_map_nil in X by (intros y Y; apply in_map_iff in Y as (z & <- & _); reflexivity). cbn in X. destruct X as [<-|[]]; cbn; auto 10.
  - destruct X.
  - destruct X.
Qed.
Lemma font_objs_refs ttf_of cs l : forall fos, Forall2 (embeds ttf_of cs) l fos -> forall o x, In o (concat fos) -> In x (refs (snd o)) ->
  In x (map fst (concat fos)).
Proof.
  induction 1 as [|p os l fos H _ IH]; intros o x I X; [destruct I|]. cbn [concat] in *. rewrite map_app. apply in_or_app.
  apply in_app_or in I as [I|I]; [left; eapply subset_refs; eassumption|right; eapply IH; eassumption].
Qed.
Lemma zip_count_in {A} (l : list A) : forall a st x i, In (x, i) (zip_count l a st) -> exists k, k < List.length l /\ i = (a + st * N.of_nat k)%N.
Proof.
  induction l as [|y l IH]; intros a st x i I; [destruct I|]. cbn [zip_count] in I. destruct I as [I|I].
  - injection I as -> ->. exists 0. cbn. split; [lia|nia].
  - apply IH in I as (k & L & ->). exists (S k). cbn [List.length]. split; [lia|nia].
Qed.
Lemma page_ids_spec n : forall i, page_ids (N.of_nat i) n = map (fun k => N.of_nat (i + 2 * k)) (seq 0 n).
Proof.
  induction n as [|n IH]; intros i; [reflexivity|]. cbn [page_ids seq map]. f_equal; [f_equal; lia|].
  replace (N.of_nat i + 2)%N with (N.of_nat (i + 2)) by lia. rewrite IH, <- seq_shift, map_map. apply map_ext. intros k. f_equal. lia.
Qed.
Lemma all_refs fuel ttf_of items base objs pages R cs bs fos : finished fuel ttf_of items base objs pages R cs bs fos ->
  forall o x, In o objs -> In x (refs (snd o)) -> In x (map fst objs).
Proof.
  intros H o x I X. rewrite (all_ids _ _ _ _ _ _ _ _ _ _ H). pose proof (main_ids _ _ _ _ _ _ _ _ _ _ H) as MI.
  assert (FI := fi_objs _ _ _ _ _ _ _ _ _ _ H). rewrite FI in I. apply in_app_or in I as [I|I]; [|apply in_app_or in I as [I|I]].
  - destruct (page_objs_refs _ _ _ _ _ (streams_length _ _ _ _ _ _ (fi_streams _ _ _ _ _ _ _ _ _ _ H)) I X) as [->|[->|J]];
      [apply in_or_app; right; cbn; auto|apply in_or_app; right; cbn; auto|].
    apply in_or_app. left. rewrite <- MI, map_app. apply in_or_app. left. exact J.
  - apply in_or_app. left. rewrite <- MI, map_app. apply in_or_app. right.
    eapply font_objs_refs; [apply (fi_fonts _ _ _ _ _ _ _ _ _ _ H)|exact I|exact X].
  - cbn [headers In] in I. destruct I as [<-|[<-|[<-|[]]]]; cbn [snd refs flat_map] in X.
    + apply in_or_app. right. cbn in X |- *. intuition.
    + rewrite !app_nil_r in X. cbn [app] in X. change 4%N with (N.of_nat 4) in X. rewrite page_ids_spec, map_map in X.
      apply in_flat_map in X as (a & A & X). apply in_map_iff in A as (k & <- & A). apply in_seq in A. cbn in X. destruct X as [<-|[]].
      apply in_or_app. left. apply count_up_in. unfold main_count. lia.
    + unfold resources_atom in X. cbn [snd refs flat_map] in X. rewrite app_nil_r in X. cbn [snd refs] in X.
      unfold font_resources in X. rewrite flat_map_app in X. apply in_app_or in X as [X|X].
      * rewrite flat_map_nil in X; [destruct X|]. intros y Y. apply in_map_iff in Y as (f & <- & _). reflexivity.
      * apply in_flat_map in X as (y & Y & X). apply in_map_iff in Y as ([f j] & <- & Y). cbn in X. destruct X as [<-|[]].
        apply zip_count_in in Y as (k & L & ->). apply in_or_app. left. apply count_up_in. unfold first_font_id, main_count in *. lia.
Qed.

(** ** The font dictionary *)
Lemma index_of_nth f l : In f l -> exists k, index_of f l = Some k /\ nth_error l k = Some f.
Proof.
  induction l as [|g l IH]; intros I; [destruct I|]. cbn. destruct (font_eqb f g) eqn:E.
  - apply font_eqb_eq in E. subst. exists 0. auto.
  - destruct I as [->|I]; [rewrite font_eqb_refl in E; discriminate|]. destruct (IH I) as (k & -> & N). exists (S k). auto.
Qed.
Lemma zip_count_nth {A} (l : list A) : forall a st k x, nth_error l k = Some x -> nth_error (zip_count l a st) k = Some (x, (a + st * N.of_nat k)%N).
Proof.
  induction l as [|y l IH]; intros a st [|k] x E; try discriminate; cbn in E |- *.
  - injection E as ->. do 2 f_equal. lia.
  - rewrite (IH _ _ _ _ E). do 2 f_equal. lia.
Qed.
Lemma zip_count_fst {A} (l : list A) : forall a st, map fst (zip_count l a st) = l.
Proof. induction l as [|x l IH]; intros a st; [reflexivity|]. cbn. f_equal. apply IH. Qed.
Lemma dec_inj a b : dec a = dec b -> a = b.
Proof. intros E. rewrite <- (dec_val a), <- (dec_val b), E. reflexivity. Qed.
Lemma builtin_same_id b1 x1 y1 b2 x2 y2 : builtin_id b1 x1 y1 = builtin_id b2 x2 y2 ->
  builtin_name b1 x1 y1 = builtin_name b2 x2 y2 /\ (mkFont (TBuiltin b1) x1 y1 = mkFont (TBuiltin b2) x2 y2 \/ b1 = Symbol \/ b1 = ZapfDingbats).
Proof.
  destruct b1, x1, y1, b2, x2, y2; intros E; vm_compute in E; try discriminate E; split; try reflexivity; auto.
Qed.
Lemma builtin_id_head b x y : exists l, builtin_id b x y = 102%N :: l.
Proof. destruct b, x, y; eexists; reflexivity. Qed.
Lemma font_id_embedded R f : In f R -> is_builtin f = false -> exists k, nth_error (subsets_of R) k = Some f /\ font_id R f = 70%N :: dec (N.of_nat k).
Proof.
  intros I B. assert (J : In f (subsets_of R)) by (apply filter_In; split; [exact I|rewrite B; reflexivity]).
  destruct (index_of_nth f _ J) as (k & E & N). exists k. split; [exact N|]. unfold font_id. unfold is_builtin in B.
  destruct (f_face f); [discriminate|]. rewrite E. reflexivity.
Qed.
(** where a font of the registry is found *)
Definition font_entry (R : list font) (first : N) (f : font) (a : atom) : Prop :=
  if is_builtin f then a = builtin_resource f
  else exists k, nth_error (subsets_of R) k = Some f /\ a = ARef (first + 7 * N.of_nat k).
Lemma font_entries R first : forall f, In f R ->
  (exists a, In (font_id R f, a) (font_resources R first))
  /\ forall a, In (font_id R f, a) (font_resources R first) -> font_entry R first f a.
Proof.
  intros f I. unfold font_resources, font_entry. destruct (is_builtin f) eqn:B.
  - split.
    + exists (builtin_resource f). apply in_or_app. left. apply in_map_iff. exists f. split; [reflexivity|]. apply filter_In. auto.
    + destruct f as [[b|a1 a2 a3 a4] x y]; [|discriminate]. change (font_id R (mkFont (TBuiltin b) x y)) with (builtin_id b x y).
      intros a J. apply in_app_or in J as [J|J].
      * apply in_map_iff in J as (g & E & J). apply filter_In in J as [J1 J2]. injection E as E1 <-.
        destruct g as [[b'|] x' y']; [|discriminate]. change (builtin_id b' x' y' = builtin_id b x y) in E1.
        apply builtin_same_id in E1 as (E1 & _). unfold builtin_resource. cbn [f_face f_bold f_italic]. rewrite E1. reflexivity.
      * apply in_map_iff in J as ([g i] & E & J). injection E as E1 <-. cbn [fst] in E1.
        assert (G : In g (subsets_of R)) by (rewrite <- (zip_count_fst (subsets_of R) first 7); apply (in_map fst) in J; exact J).
        apply filter_In in G as [G1 G2]. apply negb_true_iff in G2. destruct (font_id_embedded R g G1 G2) as (k & _ & EG).
        rewrite EG in E1. destruct (builtin_id_head b x y) as (l & EL). rewrite EL in E1. discriminate.
  - destruct (font_id_embedded R f I B) as (k & NK & EK). split.
    + exists (ARef (first + 7 * N.of_nat k)). apply in_or_app. right. apply in_map_iff. exists (f, (first + 7 * N.of_nat k)%N).
      split; [reflexivity|]. eapply nth_error_In. apply zip_count_nth, NK.
    + intros a J. rewrite EK in J. apply in_app_or in J as [J|J].
      * apply in_map_iff in J as (g & E & J). apply filter_In in J as [J1 J2]. injection E as E1 <-.
        destruct g as [[b'|] x' y']; [|discriminate]. change (builtin_id b' x' y' = 70%N :: dec (N.of_nat k)) in E1.
        destruct (builtin_id_head b' x' y') as (l & EL). rewrite EL in E1. discriminate.
      * apply in_map_iff in J as ([g i] & E & J). injection E as E1 <-. cbn [fst snd] in *.
        apply In_nth_error in J as (m & NM).
        assert (GM : nth_error (subsets_of R) m = Some g).
        { rewrite <- (zip_count_fst (subsets_of R) first 7), nth_error_map, NM. reflexivity. }
        rewrite (zip_count_nth _ _ _ _ _ GM) in NM. injection NM as <-. assert (G := nth_error_In _ _ GM). apply filter_In in G as [G1 G2]. apply negb_true_iff in G2.
        destruct (font_id_embedded R g G1 G2) as (k' & NK' & EG). rewrite EG in E1. injection E1 as E1. apply dec_inj in E1.
        assert (k' = k) by lia. subst k'. assert (g = f) by congruence. subst g.
        (* m: the position of f, which may only occur once *)
        exists m. split; [exact GM|reflexivity].
Qed.


Lemma font_keys R first : map fst (font_resources R first) = map (font_id R) (builtins_of R ++ subsets_of R).
Proof.
  unfold font_resources. rewrite !map_app, !map_map. cbn [fst]. f_equal. rewrite <- (zip_count_fst (subsets_of R) first 7) at 2. rewrite map_map. reflexivity.
Qed.
Lemma font_duplicates R first l1 name a l2 b l3 : NoDup R -> font_resources R first = l1 ++ (name, a) :: l2 ++ (name, b) :: l3 ->
  a = b /\ (name = bs "f12" \/ name = bs "f13").
Proof.
  intros ND E. pose proof (font_keys R first) as K. rewrite E in K. rewrite !map_app in K. cbn [map fst] in K. rewrite map_app in K. cbn [map fst] in K.
  symmetry in K. rewrite <- (map_app (font_id R)) in K. apply map_eq_app in K as (r1 & r2 & ER & K1 & K2).
  apply map_eq_cons in K2 as (f & r3 & -> & K2 & K3). apply map_eq_app in K3 as (r4 & r5 & -> & K4 & K5). apply map_eq_cons in K5 as (g & r6 & -> & K5 & K6).
  assert (NR : NoDup (builtins_of R ++ subsets_of R)).
  { clear -ND. induction R as [|x R IH]; [constructor|]. inversion ND as [|? ? N1 N2]; subst. specialize (IH N2). unfold builtins_of, subsets_of in *.
    cbn [filter]. assert (X : ~ In x (filter is_builtin R ++ filter (fun f => negb (is_builtin f)) R)).
    { intros I. apply in_app_or in I as [I|I]; apply filter_In in I as [I _]; auto. }
    destruct (is_builtin x); cbn [negb app]; [constructor; assumption|].
    apply (Permutation.Permutation_NoDup (l := x :: filter is_builtin R ++ filter (fun f => negb (is_builtin f)) R)); [apply Permutation.Permutation_middle|constructor; assumption]. }
  rewrite ER in NR. apply NoDup_remove in NR as [_ NR]. assert (FG : f <> g).
  { intros ->. apply NR. apply in_or_app. right. apply in_or_app. right. left. reflexivity. }
  assert (IR : forall h, In h (builtins_of R ++ subsets_of R) -> In h R).
  { intros h I. apply in_app_or in I as [I|I]; apply filter_In in I as [I _]; exact I. }
  assert (If : In f R) by (apply IR; rewrite ER; apply in_or_app; right; left; reflexivity).
  assert (Ig : In g R) by (apply IR; rewrite ER; apply in_or_app; right; right; apply in_or_app; right; left; reflexivity).
  assert (X : is_builtin f = true /\ is_builtin g = true /\ (name = bs "f12" \/ name = bs "f13")).
  { rewrite <- K5 in K2. destruct (is_builtin f) eqn:Bf, (is_builtin g) eqn:Bg.
    - split; [reflexivity|]. split; [reflexivity|]. destruct f as [[b1|] x1 y1]; [|discriminate]. destruct g as [[b2|] x2 y2]; [|discriminate].
      change (builtin_id b1 x1 y1 = builtin_id b2 x2 y2) in K2. rewrite <- K5. change (font_id R (mkFont (TBuiltin b2) x2 y2)) with (builtin_id b2 x2 y2).
      apply builtin_same_id in K2 as K7. destruct K7 as [_ [K7|K7]]; [congruence|]. rewrite <- K2.
      destruct K7 as [->| ->]; destruct x1, y1; auto.
    - destruct (font_id_embedded R g Ig Bg) as (k & _ & EK). rewrite EK in K2. destruct f as [[b1|] x1 y1]; [|discriminate].
      change (builtin_id b1 x1 y1 = 70%N :: dec (N.of_nat k)) in K2. destruct (builtin_id_head b1 x1 y1) as (l & EL). rewrite EL in K2. discriminate.
    - destruct (font_id_embedded R f If Bf) as (k & _ & EK). rewrite EK in K2. destruct g as [[b1|] x1 y1]; [|discriminate].
      change (70%N :: dec (N.of_nat k) = builtin_id b1 x1 y1) in K2. destruct (builtin_id_head b1 x1 y1) as (l & EL). rewrite EL in K2. discriminate.
    - destruct (font_id_embedded R f If Bf) as (k & NK & EK). destruct (font_id_embedded R g Ig Bg) as (k' & NK' & EK'). rewrite EK, EK' in K2.
      injection K2 as K2. apply dec_inj in K2. assert (k = k') by lia. congruence. }
  destruct X as (Bf & Bg & X). split; [|exact X]. destruct (font_entries R first f If) as (_ & Y). unfold font_entry in Y. rewrite Bf in Y.
  rewrite K2, E in Y. rewrite (Y a), (Y b); [reflexivity| |]; apply in_or_app; right; [right; apply in_or_app; right; left; reflexivity|left; reflexivity].
Qed.

Lemma page_nth R base pages cs bs cs' : streams R base pages cs bs cs' -> forall i k p, nth_error pages k = Some p ->
  exists ops b c1 c2, page_ops base p = Ok ops /\ ops_in (fun f _ => In f R) ops /\ ops_bytes R ops c1 = Ok (b, c2)
  /\ In (N.of_nat (i + 2 * k), page_dict (rpage_laid p) (N.of_nat (i + 2 * k))) (page_objs pages bs (N.of_nat i))
  /\ In ((N.of_nat (i + 2 * k) + 1)%N, AStream b []) (page_objs pages bs (N.of_nat i)).
Proof.
  induction 1 as [cs|p0 pages cs ops b cs1 bs cs2 P F B ST IH]; intros i k p K; [destruct k; discriminate|].
  cbn [page_objs]. destruct k as [|k]; cbn [nth_error] in K.
  - injection K as ->. exists ops, b, cs, cs1. split; [exact P|]. split; [exact F|]. split; [exact B|].
    replace (i + 2 * 0) with i by lia. split; [left; reflexivity|right; left; reflexivity].
  - destruct (IH (i + 2) k p K) as (ops' & b' & c1 & c2 & H1 & H2 & H3 & H4 & H5). exists ops', b', c1, c2.
    split; [exact H1|]. split; [exact H2|]. split; [exact H3|].
    replace (N.of_nat i + 2)%N with (N.of_nat (i + 2)) by lia. replace (i + 2 * S k) with (i + 2 + 2 * k) by lia. split; right; right; assumption.
Qed.
Lemma tf_chunk R ops : forall cs b cs' f z, ops_bytes R ops cs = Ok (b, cs') -> In (OTf f z) ops ->
  In (bs "/" ++ font_id R f ++ bs " " ++ fmt_num z ++ bs " Tf" ++ [10%N]) b.
Proof.
  induction ops as [|o ops IH]; intros cs b cs' f z E I; [destruct I|]. cbn [ops_bytes] in E.
  apply bind_ok in E as (x & X & E). apply bind_ok in E as ((b2 & c2) & Y & E). cbn [fst snd] in E. apply Ok_inj in E. injection E as <- <-.
  destruct I as [->|I]; [|right; eapply IH; eassumption]. left. cbn [op_bytes] in X. apply Ok_inj in X. subst x. cbn [fst].
  unfold nums, sp, line_end. cbn [flat_map]. rewrite app_nil_r, <- !app_assoc. reflexivity.
Qed.
Lemma embedded_objects ttf_of cs main R first fos last m f : NoDup (map fst (main ++ concat fos ++ last)) ->
  Forall2 (embeds ttf_of cs) (zip_count (subsets_of R) first 7) fos -> nth_error (subsets_of R) m = Some f ->
  composite_font (main ++ concat fos ++ last) (ttf_of f) (first + 7 * N.of_nat m).
Proof.
  intros ND F NM. set (i := (first + 7 * N.of_nat m)%N). pose proof (zip_count_nth _ first 7 _ _ NM) as Z. fold i in Z.
  assert (X : exists os, nth_error fos m = Some os /\ embeds ttf_of cs (f, i) os).
  { clear -F Z. generalize dependent i. intros i Z. revert m Z. induction F as [|x os l fos H _ IH]; intros [|m] Z; try discriminate; cbn [nth_error] in *.
    - injection Z as ->. eauto.
    - apply IH, Z. }
  destruct X as (os & NO & EM). assert (IN : forall o, In o os -> In o (main ++ concat fos ++ last)).
  { intros o I. apply in_or_app. right. apply in_or_app. left. apply in_concat. exists os. split; [eapply nth_error_In; exact NO|exact I]. }
  unfold embeds, subset_objects in EM. cbn [fst snd] in EM. apply bind_ok in EM as (u & _ & E). apply bind_ok in E as (g & _ & E). apply Ok_inj in E. subst os.
  unfold composite_font. do 10 eexists. cbn zeta. fold i.
  split; [apply nodup_fst_object; [exact ND|apply IN; left; reflexivity]|].
  do 5 (split; [reflexivity|]).
  split; [apply nodup_fst_object; [exact ND|apply IN; right; left; reflexivity]|].
  do 4 (split; [reflexivity|]). split; [apply nodup_fst_object; [exact ND|apply IN; do 3 right; left; reflexivity]|].
  do 4 (split; [reflexivity|]). split; [apply nodup_fst_object; [exact ND|apply IN; do 4 right; left; reflexivity]|].
  do 3 (split; [reflexivity|]). apply nodup_fst_object; [exact ND|apply IN; do 6 right; left; reflexivity].
Qed.
Lemma seq_shift_n a n : map (fun k => a + k) (seq 0 n) = seq a n.
Proof.
  induction n as [|n IH] in a |- *; [reflexivity|]. cbn [seq map]. f_equal; [lia|]. rewrite <- (IH (S a)), <- (IH 1), map_map. apply map_ext. intros k. lia.
Qed.

(** ** Writing *)
Section W.
Variable compress : bytes -> bytes.
Lemma chunks_gen_ok objs e cs : chunks_gen compress objs e = (cs, Finished) -> e = Finished /\ mapM (write_obj compress) objs = Ok cs.
Proof.
  revert cs. induction objs as [|o objs IH]; intros cs E; cbn [chunks_gen mapM] in *.
  - injection E as <- ->. auto.
  - destruct (write_obj compress o) as [b|]; [|discriminate]. destruct (chunks_gen compress objs e) as [l x]. cbn [fst snd] in E. injection E as <- ->.
    destruct (IH l eq_refl) as (-> & M). cbn [bind]. rewrite M. auto.
Qed.
Lemma write_gen_ok fid objs e parts : write_gen compress fid objs e = (parts, Finished) -> e = Finished /\ write_file compress fid objs = Ok parts.
Proof.
  unfold write_gen. destruct (chunks_gen compress objs e) as [cs x] eqn:C. cbn [fst snd]. destruct x; try discriminate.
  destruct (chunks_gen_ok _ _ _ C) as (-> & M). intros E. split; [reflexivity|]. unfold write_file. rewrite M. cbn [bind].
  cbn [map] in E. destruct (rev _) as [|a [|b [|c [|d r]]]]; try discriminate.
  destruct (write_trailer _ _ _ _) as [t|]; [|discriminate]. injection E as <-. reflexivity.
Qed.
Lemma chunks_gen_end objs e : snd (chunks_gen compress objs e) = e \/ exists x, snd (chunks_gen compress objs e) = Raised x.
Proof.
  induction objs as [|o objs IH]; [auto|]. cbn [chunks_gen]. destruct (write_obj compress o); [exact IH|right; eexists; reflexivity].
Qed.
Lemma write_gen_nopages fid objs e : snd (write_gen compress fid objs e) = NoPages -> e = NoPages.
Proof.
  unfold write_gen. destruct (chunks_gen_end objs e) as [->|(x & ->)]; [|discriminate]. destruct e; try discriminate; [|reflexivity].
  destruct (rev _) as [|a [|b [|c [|d r]]]]; discriminate.
Qed.
End W.
End Pages.
