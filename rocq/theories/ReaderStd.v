(** * ReaderStd: text is always shown in some font; documents in the standard fonts. *)
From Coq Require Import QArith String.
From Verif Require Import Base Gfmt GfmtProofs Atoms PdfSpec AtomsProofs FileProofs NameProofs FontSpec FontProofs ContentSpec ContentProofs ReaderSpec.
From Verif Require Import Num Fonts State Style Words Parse Render RenderSpec RenderProofs Firstfit KnuthPlass
  Optimum Common Show Draw Layout LayoutProofs LayoutPages ContentOps FontsUsed ReaderText ContentText Document DocumentSpec DocumentProofs ReaderDoc.
Local Open Scope list_scope.
Open Scope nat_scope.

Section S.
Context {NUM : Num} {ENV : Env NUM}.

(** ** There is a current font whenever text is shown *)
Definition has_font (s : shown) : Prop := sh_items s = [] \/ exists f, v_font (sh_v s) = Some f.
Definition opens (ops : list op) : Prop := forall v, Forall has_font (fst (view v ops)).
Lemma opens_app a b : opens a -> opens b -> opens (a ++ b).
Proof. intros A B v. rewrite view_app. cbn [fst]. apply Forall_app. split; [apply A|apply B]. Qed.
Lemma opens_nil : opens [].
Proof. intros v. constructor. Qed.
Lemma opens_flat {A} (f : A -> list op) l : Forall (fun x => opens (f x)) l -> opens (flat_map f l).
Proof. induction 1; [apply opens_nil|]. cbn [flat_map]. apply opens_app; assumption. Qed.
Lemma step_font v o f : v_font v = Some f -> exists g, v_font (vstep v o) = Some g.
Proof. intros H. destruct o; cbn [vstep vmove vlead v_font]; eauto. Qed.
Lemma set_opens ops : forall v f, v_font v = Some f -> Forall has_font (fst (view v ops)).
Proof.
  induction ops as [|o ops IH]; intros v f H; [constructor|]. cbn [view]. destruct (step_font v o f H) as (g & G).
  specialize (IH (vstep v o) g G). destruct (view (vstep v o) ops) as [out v']. cbn [fst] in *.
  destruct o; try exact IH. constructor; [right; exists f; exact H|exact IH].
Qed.
Definition dull (o : op) : Prop := forall l, o = OTJ l -> l = [].
Lemma dull_opens ops : Forall dull ops -> opens ops.
Proof.
  induction 1 as [|o ops D _ IH]; intros v; [constructor|]. cbn [view]. specialize (IH (vstep v o)).
  destruct (view (vstep v o) ops) as [out v']. cbn [fst] in *. destruct o; try exact IH.
  constructor; [left; apply D; reflexivity|exact IH].
Qed.
Ltac dull1 := let X := fresh in intros ? X; discriminate X.
Fixpoint cmd_dull (c : command) : Forall dull (cmd_ops c).
Proof.
  destruct c as [|f z|z|r|r|l]; cbn [cmd_ops]; try (repeat constructor; dull1).
  induction l as [|c l IH]; [constructor|]. cbn [flat_map]. apply Forall_app. split; [apply cmd_dull|exact IH].
Qed.
Lemma empty_lines_dull a ls lead width : flat_map tl_words ls = [] -> Forall dull (render_lines a ls lead width).
Proof.
  intros E. assert (T : Forall (fun l => Forall dull (tline_ops l)) ls).
  { apply Forall_forall. intros l I. assert (W : tl_words l = []).
    { apply in_split in I as (x & y & ->). rewrite flat_map_app in E. apply app_eq_nil in E as [_ E]. cbn [flat_map] in E.
      apply app_eq_nil in E as [E _]. exact E. }
    unfold tline_ops. rewrite W. apply Forall_app. split; [apply cmd_dull|]. constructor; [|constructor].
    intros l' X. injection X as <-. reflexivity. }
  clear E. destruct a; cbn [render_lines].
  1,4: (unfold render_left; apply Forall_cons; [dull1|]; induction T as [|l ls H _ IH]; [apply Forall_nil|cbn [flat_map app]; apply Forall_cons; [dull1|apply Forall_app; split; assumption]]).
  all: revert width; induction T as [|l ls H _ IH]; intros width; [constructor|]; cbn; constructor; [dull1|]; apply Forall_app; split; [exact H|apply IH].
Qed.
Lemma render_opens x y st width ls lead a : (st = None -> flat_map tl_words ls = []) -> opens (render_text x y st width ls lead a).
Proof.
  intros H. unfold render_text. destruct st as [st|].
  - intros v. change (OBT :: OTd x y :: state_ops st ++ render_lines a ls lead width ++ [OET])
      with ([OBT; OTd x y; OTf (st_font st) (st_size st)] ++ (Org (st_color st) :: render_lines a ls lead width ++ [OET])).
    rewrite view_app. cbn [fst]. apply Forall_app. split; [constructor|]. eapply set_opens. reflexivity.
  - cbn [app]. apply dull_opens. constructor; [dull1|]. constructor; [dull1|]. apply Forall_app. split; [apply empty_lines_dull; auto|].
    constructor; [dull1|constructor].
Qed.
Lemma shape_opens s pos width : opens (sh_ops s pos width).
Proof.
  destruct s as [ls lead a h|p q c h]; cbn [sh_ops].
  - apply render_opens. unfold text_pre_state, text_words. destruct (flat_map tl_words ls); [reflexivity|discriminate].
  - apply dull_opens. repeat constructor; dull1.
Qed.
Lemma cols_open cs : opens (flat_map cf_ops cs).
Proof. apply opens_flat, Forall_forall. intros c _. apply opens_flat, Forall_forall. intros p _. apply shape_opens. Qed.
Ltac dulls := repeat (apply Forall_cons; [dull1|]); try apply Forall_nil.
Lemma finish_dull f s c : Forall dull (finish f s c).
Proof. destruct f, s; cbn [finish]; try destruct c; dulls. Qed.
Lemma draw_opens d base ops : draw_ops d base = Ok ops -> opens ops.
Proof.
  intros E. destruct d as [a b s|o w h f s|c w h f s|c r f s|pts close f s|loc content st al]; cbn [draw_ops] in E.
  - apply Ok_inj in E. subst. apply dull_opens. cbn [app]. dulls. apply finish_dull.
  - apply Ok_inj in E. subst. apply dull_opens. dulls. apply finish_dull.
  - apply Ok_inj in E. subst. apply dull_opens. unfold ellipse_ops. cbn [app]. dulls. apply finish_dull.
  - apply Ok_inj in E. subst. apply dull_opens. unfold ellipse_ops. cbn [app]. dulls. apply finish_dull.
  - unfold polyline_ops in E. destruct pts as [|p r]; [apply Ok_inj in E; subst; apply opens_nil|].
    apply bind_ok in E as (a & _ & E). apply bind_ok in E as (l & _ & E). apply Ok_inj in E. subst. apply dull_opens.
    constructor; [dull1|]. apply Forall_app. split; [|apply finish_dull]. apply Forall_map, Forall_forall. intros q _. dull1.
  - unfold text_ops in E. apply bind_ok in E as (ls & EL & E). apply Ok_inj in E. subst. apply render_opens. discriminate.
Qed.
Lemma mapM_concat_opens ds base l : mapM (fun d => draw_ops d base) ds = Ok l -> opens (concat l).
Proof.
  revert l. induction ds as [|d ds IH]; intros l E; cbn [mapM] in E.
  - apply Ok_inj in E. subst. apply opens_nil.
  - apply bind_ok in E as (x & X & E). apply bind_ok in E as (y & Y & E). apply Ok_inj in E. subst. cbn [concat].
    apply opens_app; [eapply draw_opens, X|apply IH, Y].
Qed.

(** ** Invariants of the columns of automatic pages *)
Lemma auto_loop_all (K : colfill -> Prop) fuel base blocks : K no_col ->
  Forall (fun b => forall cs out, (forall i, K (cs i)) -> block_columns fuel b base cs = Ok out -> Forall K out) blocks ->
  forall doc comp doc', (forall k, page_all K (doc k)) -> auto_loop fuel blocks base doc = Ok (comp, doc') ->
  Forall (page_all K) comp /\ forall k, page_all K (doc' k).
Proof.
  intros N. induction 1 as [|b r B _ IH]; intros doc comp doc' D E; cbn [auto_loop] in E.
  - apply Ok_inj in E. injection E as <- <-. split; [constructor|exact D].
  - apply bind_ok in E as (cols & C & E). apply bind_ok in E as ([c1 d1] & FI & E). apply bind_ok in E as ([c2 d2] & A & E).
    apply Ok_inj in E. injection E as <- <-. cbn [fst snd] in *.
    destruct (fill_into_all _ _ _ _ _ (B _ _ (flat_todo_all K doc N D) C) D FI) as (P1 & P2).
    destruct (IH _ _ _ P2 A) as (Q1 & Q2). split; [apply Forall_app; split; assumption|exact Q2].
Qed.
Lemma auto_pages_all (K : colfill -> Prop) fuel base blocks template pnum pages : K no_col ->
  Forall (fun b => forall cs out, (forall i, K (cs i)) -> block_columns fuel b base cs = Ok out -> Forall K out) blocks ->
  (forall i c, In c (pg_columns (template i)) -> K (cf_new c)) ->
  auto_pages fuel blocks template base pnum = Ok pages -> Forall (fun p => Forall K (snd p)) pages.
Proof.
  intros N B T E. unfold auto_pages in E. apply bind_ok in E as ([comp doc'] & A & E). apply Ok_inj in E. subst. cbn [fst snd].
  eapply auto_loop_all in A as (P1 & P2); [apply Forall_app; split| | |].
  5: { intros k. unfold page_all. cbn. apply Forall_forall. intros c I. apply in_map_iff in I as (x & <- & I). eapply T, I. }
  4: exact B.
  3: exact N.
  - apply Forall_map. eapply Forall_impl; [|exact P1]. intros p H. cbn [snd]. unfold page_all in H. apply Forall_app in H as [H _]. exact H.
  - constructor; [|constructor]. cbn [snd]. apply (P2 0).
Qed.

(** ** Documents in the standard fonts *)
Definition standard_fonts (l : list font) : Prop := Forall (fun f => is_builtin f = true) l.
Definition standard_item (base : full) (i : ditem) : Prop :=
  match i with
  | DPage p => Forall (fun d => standard_fonts (draw_fonts d base)) (pg_content p)
  | DAuto blocks template => Forall (fun b => standard_fonts (block_fonts b base)) blocks
      /\ forall n, Forall (fun d => standard_fonts (draw_fonts d base)) (pg_content (template n))
  end.
Definition std (f : font) : Prop := is_builtin f = true.
Lemma laid_standard fuel base items n pages : laid fuel base items n pages -> Forall (standard_item base) items ->
  Forall (fun p : laid_page => Forall (fun d => standard_fonts (draw_fonts d base)) (pg_content (fst p)) /\ ops_in (fun f _ => std f) (snd p) /\ opens (snd p)) pages.
Proof.
  induction 1 as [n|p items n pages L IH|blocks template items n ps pages A L IH]; intros S; [constructor| |]; inversion S as [|? ? S1 S2]; subst.
  - constructor; [|apply IH, S2]. cbn [fst snd]. split; [exact S1|]. split; [constructor|apply opens_nil].
  - apply Forall_app. split; [|apply IH, S2]. destruct S1 as [B T]. apply Forall_map.
    assert (K : Forall (fun p => Forall (col_in (fun f _ => std f)) (snd p)) ps).
    { eapply auto_pages_all; [| | |exact A].
      - constructor.
      - eapply Forall_impl; [|exact B]. intros b SB cs out C E. eapply block_columns_in; [|exact C|exact E].
        intros f I. unfold standard_fonts in SB. rewrite Forall_forall in SB. apply SB, I.
      - intros; constructor. }
    destruct (auto_pages_bases _ _ _ _ _ _ A) as (_ & M).
    assert (TB : Forall (fun p => exists k, fst p = template k) ps).
    { apply Forall_forall. intros p I. apply (in_map fst) in I. rewrite M in I. apply in_map_iff in I as (k & <- & _). eauto. }
    clear -K TB T. induction K as [|p ps H _ IHK]; [constructor|]. inversion TB as [|? ? (k & E) TB2]; subst. constructor; [|apply IHK, TB2].
    cbn [fst snd]. rewrite E. split; [apply T|]. split; [apply cols_ops_in, H|apply cols_open].
Qed.
Lemma shown_fonts (F : font -> Prop) ops : ops_in (fun f _ => F f) ops -> forall v, (forall f, v_font v = Some f -> F f) ->
  Forall (fun s => (forall f, v_font (sh_v s) = Some f -> F f) /\ Forall (item_in (fun f _ => F f)) (sh_items s)) (fst (view v ops)).
Proof.
  induction 1 as [|o ops O _ IH]; intros v V; [constructor|]. cbn [view].
  assert (V' : forall f, v_font (vstep v o) = Some f -> F f).
  { destruct o; cbn [vstep vmove vlead v_font]; try exact V. intros f' X. injection X as <-. exact O. }
  specialize (IH (vstep v o) V'). destruct (view (vstep v o) ops) as [out v']. cbn [fst] in *.
  destruct o; try exact IH. constructor; [|exact IH]. cbn [sh_v sh_items]. split; [exact V|exact O].
Qed.
Lemma standard_codes ops v : ops_in (fun f _ => std f) ops -> opens ops -> (forall f, v_font v = Some f -> std f) -> right_codes (fst (view v ops)).
Proof.
  intros O P V. specialize (P v). pose proof (shown_fonts std ops O v V) as S. unfold right_codes.
  induction P as [|s l H _ IH]; [constructor|]. inversion S as [|? ? [S1 S2] S3]; subst. constructor; [|apply IH, S3].
  destruct H as [->|(f & E)]; [constructor|]. eapply Forall_impl; [|exact S2]. intros i I. exists f. split; [exact E|]. right. right.
  split; [apply S1, E|]. destruct i as [s'|t st]; cbn in I |- *; [apply I|exact I].
Qed.
Lemma standard_page base (p : laid_page) ops : Forall (fun d => standard_fonts (draw_fonts d base)) (pg_content (fst p)) ->
  ops_in (fun f _ => std f) (snd p) -> opens (snd p) -> page_ops base p = Ok ops -> right_codes (fst (view blank ops)).
Proof.
  intros D O P E. unfold page_ops in E. apply bind_ok in E as (l & M & E). apply Ok_inj in E. subst. apply standard_codes.
  - apply ops_in_app. split; [|exact O]. clear -M D. revert l M. induction D as [|d ds H _ IH]; intros l M; cbn [mapM] in M.
    + apply Ok_inj in M. subst. constructor.
    + apply bind_ok in M as (x & X & M). apply bind_ok in M as (y & Y & M). apply Ok_inj in M. subst. cbn [concat]. apply ops_in_app. split; [|apply IH, Y].
      eapply draw_ops_in; [|exact X]. intros f I. unfold standard_fonts in H. rewrite Forall_forall in H. apply H, I.
  - apply opens_app; [eapply mapM_concat_opens, M|exact P].
  - discriminate.
Qed.
End S.
