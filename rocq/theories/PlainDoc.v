(** * PlainDoc: a document made from a string can be laid out. *)
From Coq Require Import QArith Qcanon Lqa Sorted.
From Verif Require Import Base FontProofs Num Fonts State Style TextSpec StateProofs Words WordsSpec WordProofs WordOps
  Parse Render RenderSpec RenderProofs WordWidth Firstfit KnuthPlass Optimum Properties_Optimum Common LayoutStyle BuiltinTables Builtins Properties_Builtins
  NumbersUsed ShortWords Layout LayoutProofs Document LayoutTotal SuccessProofs LayoutRules SuccessDoc Printable LayoutPages Properties_Success.
Local Open Scope list_scope.
Open Scope nat_scope.

Section Pieces.
Context {ENV : Env QcNum}.
Variables (f0 : font) (z0 : Qc).
Hypothesis HY : all_split.
Hypothesis ZP : (0 <= z0)%Qc.
Hypothesis CW : forall c, (charwidth f0 c <= QZ 1100)%Qc.
Hypothesis CK : forall a c, (charkern f0 a c <= QZ 100)%Qc.
Lemma font_kern_bound t prev : Forall (fun e : nat * Qc => snd e <= QZ 100)%Qc (font_kern f0 t prev).
Proof.
  change (Forall (fun e : nat * @num QcNum => (snd e <= QZ 100)%Qc) (font_kern f0 t prev)).
  unfold font_kern. destruct (kerntab f0) as [tab|] eqn:T; [|constructor]. apply Forall_forall. intros [j k] I.
  assert (X : exists a b, k = tab a b). { unfold kern in I. destruct prev; apply kern_from_in in I as (a & b & _ & _ & E & _); eauto. }
  destruct X as (a & b & ->). specialize (CK a b). unfold charkern in CK. rewrite T in CK. exact CK.
Qed.
Lemma form_bound n st b : st_font st = f0 -> st_size st = z0 -> short_slug n st b ->
  (box_advance b <= QZ (1200 * Z.of_nat n) / thousand * z0)%Qc
  /\ (box_advance (box_with_hyphen b) <= QZ (1200 * Z.of_nat (S n)) / thousand * z0)%Qc.
Proof.
  intros EF EZ (t & prev & -> & NE & L).
  assert (M : forall a b : nat, a <= b -> (QZ (1200 * Z.of_nat a) / thousand * z0 <= QZ (1200 * Z.of_nat b) / thousand * z0)%Qc).
  { intros a b H. apply Qcmult_le_compat_r; [|exact ZP]. rewrite !Qcdiv_def. apply Qcmult_le_compat_r; [|discriminate]. apply QZ_le. lia. }
  assert (OK := slug_new_ok t st prev NE).
  assert (K : Forall (fun e : nat * Qc => snd e <= QZ 100)%Qc (sl_kern (slug_new t st prev))) by (cbn; rewrite EF; apply font_kern_bound).
  split; cbn [box_advance box_with_hyphen].
  - eapply Qcle_trans; [apply (slug_bound f0 z0 ZP CW CK); auto|]. apply M. exact L.
  - eapply Qcle_trans; [apply (slug_bound f0 z0 ZP CW CK); auto; [apply slug_with_hyphen_ok, OK|]|].
    + cbn [slug_with_hyphen sl_kern]. destruct (ntruthy _); [|exact K]. apply Forall_app. split; [exact K|]. constructor; [|constructor].
      cbn [snd sl_state slug_new]. rewrite EF. apply CK.
    + apply M. cbn [slug_with_hyphen sl_txt slug_new]. rewrite app_length. cbn. lia.
Qed.
Lemma short_fits n p t : short_words n t -> ~ In 10%N t -> p_indent p = 0%Qc ->
  pieces_fit p f0 z0 (QZ (1200 * Z.of_nat (S n)) / thousand * z0)%Qc [(NoOp, t)].
Proof.
  intros SW NL IN st cmd ws ex ws' EF EZ W I w b Iw Ib.
  apply indent_first_none in I; [|rewrite IN; reflexivity]. subst ws'.
  pose proof (words_short n NoOp t st cmd ws ex SW NL W) as A. rewrite Forall_forall in A. destruct (A w Iw) as (x & -> & P).
  apply piece_slugs in P; [|exact HY]. cbn [apply] in P. unfold end_forms in Ib. cbn [wl_boxes] in Ib.
  destruct (rev (w_boxes x)) as [|b0 r] eqn:R; [destruct Ib|].
  assert (E : w_boxes x = rev r ++ [b0]) by (rewrite <- (rev_involutive (w_boxes x)), R; reflexivity).
  rewrite E in P. apply Forall_app in P as (P1 & P2). apply in_app_or in Ib as [Ib|[<-|[]]].
  - apply in_map_iff in Ib as (y & <- & Iy). rewrite Forall_forall in P1. apply (form_bound n st y EF EZ), P1, Iy.
  - eapply Qcle_trans; [apply (form_bound n st b0 EF EZ); inversion P2; assumption|].
    apply Qcmult_le_compat_r; [|exact ZP]. rewrite !Qcdiv_def. apply Qcmult_le_compat_r; [|discriminate]. apply QZ_le. lia.
Qed.
End Pieces.

(** ** The lines of a string *)
Section Lines.
Context {NUM : Num}.
Lemma groups_plain fuel : forall t cont, (cont = true \/ cont = false) ->
  Forall (fun g => exists l, g = [(NoOp, l)] /\ ~ In 10%N l /\ exists a b, t = a ++ l ++ b) (groups fuel NoOp t cont []).
Proof.
  induction fuel as [|fuel IH]; intros t cont C; [constructor|]. cbn [groups List.length group].
  replace (if cont then NoOp else NoOp) with NoOp by (destruct cont; reflexivity).
  destruct (split_newline t) as [[b a]|] eqn:E.
  - pose proof (split_newline_before _ _ _ E) as N. apply split_newline_app in E. constructor.
    + exists b. split; [reflexivity|]. split; [exact N|]. destruct E as [->| ->]; exists []; eexists; reflexivity.
    + eapply Forall_impl; [|apply (IH a true); auto]. intros g (l & -> & NL & x & y & ->). exists l. split; [reflexivity|]. split; [exact NL|].
      destruct E as [->| ->]; [exists (b ++ 10%N :: x), y|exists (b ++ 13%N :: 10%N :: x), y]; rewrite <- !app_assoc; reflexivity.
  - constructor; [|constructor]. exists t. split; [reflexivity|]. split; [apply split_newline_none, E|]. exists [], []. rewrite app_nil_r. reflexivity.
Qed.
End Lines.

(** ** A string on default pages *)
Section Doc.
Context {ENV : Env QcNum}.
(** a style in which words of [n] characters are sure to fit: a standard font, and ordinary numbers *)
Definition modest (n : nat) (base : @full QcNum) : Prop :=
  is_builtin (st_font (as_state base)) = true
  /\ (0 < fs_size base)%Qc /\ ordinary (fs_size base) /\ rgb_in ordinary (fs_color base)
  /\ (0 < fs_size base * fs_spacing base)%Qc /\ ordinary (fs_size base * fs_spacing base)%Qc
  /\ (fs_size base * fs_spacing base <= Q2Qc 698)%Qc
  /\ (QZ (1200 * Z.of_nat (S n)) / thousand * fs_size base <= Q2Qc 451)%Qc.
Lemma flatten_plain (base : @full QcNum) s : flatten base style_empty [IStr s] = [(NoOp, s)].
Proof. destruct base. reflexivity. Qed.
Lemma or_empty (base : @full QcNum) : full_or base style_empty = base.
Proof. destruct base; reflexivity. Qed.
Lemma lead_plain default (base : @full QcNum) s : (0 < fs_size base * fs_spacing base)%Qc -> para_lead base (plain_para default s) = (fs_size base * fs_spacing base)%Qc.
Proof.
  intros LP. unfold para_lead. cbn [p_style p_content plain_para]. rewrite or_empty, flatten_plain.
  unfold max_lead. cbn [max_lead_from apply]. set (l := lead (as_state base)).
  assert (E : l = (fs_size base * fs_spacing base)%Qc) by reflexivity.
  destruct s as [|c s]; [exact E|]. unfold nmax.
  assert (X : (n0 <? l)%num = true). { rewrite E. apply Qcltb_lt. exact LP. }
  rewrite X. destruct (ntruthy l); exact E.
Qed.
Lemma string_layable n (default : @num QcNum * @params QcNum) base s : all_split -> standard_metrics ENV -> (0 < fst default)%Qc -> modest n base -> short_words n s ->
  layable (Q2Qc 698) (Q2Qc 451) base (plain_para default s).
Proof.
  intros HY SM TP (BF & ZP & _ & _ & LP & _ & LH & WD) SW.
  split; [split; [rewrite or_empty; exact ZP|cbn; auto]|]. split; [split; rewrite (lead_plain default base s LP); assumption|].
  cbn [p_optimal plain_para]. destruct default as [tol P]. split; [exact TP|]. cbn [is_justify p_align plain_para p_style p_content].
  rewrite or_empty. split; [split; [rewrite or_empty; split; reflexivity|cbn; auto]|].
  destruct (standard_bounds ENV SM _ BF) as (CW & CK). split; [apply Properties_Success.C80_standard_fonts; assumption|].
  rewrite flatten_plain. unfold splitlines. eapply Forall_impl; [|apply groups_plain; auto].
  intros g (l & -> & NL & a & b & E). subst s. intros st cmd ws ex ws' EF EZ W I w x Iw Ib. eapply Qcle_trans; [|exact WD].
  eapply (short_fits (st_font (as_state base)) (fs_size base) HY); [apply Qclt_le_weak, ZP|exact CW| |eapply short_part; exact SW|exact NL| |exact EF|exact EZ|exact W|exact I|exact Iw|exact Ib].
  - intros u v. destruct (CK u v) as (k & -> & K1 & K2). apply QZ_le. exact K2.
  - reflexivity.
Qed.
End Doc.
