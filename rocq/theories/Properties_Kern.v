(** * Property C75: kerning.  Specification: KernSpec. *)
From Coq Require Import QArith Qcanon String.
From Verif Require Import Base Gfmt FontSpec FontProofs Num Fonts State TextSpec StateProofs Words WordsSpec WordProofs Parse Render RenderSpec RenderProofs WordWidth KernSpec KernProofs.
From Verif Require Import BuiltinTables Builtins Properties_Words.
Local Open Scope list_scope.
Open Scope nat_scope.

Section Proofs.
Context {ENV : Env QcNum}.
Notation at_ st := (option_map (fun p => (p, st))).
(** each word kerned with its predecessor *)
Fixpoint ks (d : option schar) (ws : list wordlike) : Prop :=
  match ws with [] => True | w :: r => adjusted w = kerned_text d (measured w) /\ ks (last_of d (measured w)) r end.
(** each word kerned with its predecessor or with nothing *)
Fixpoint kw (d : option schar) (ws : list wordlike) : Prop :=
  match ws with
  | [] => True
  | w :: r => (exists p, (p = None \/ p = d) /\ adjusted w = kerned_text p (measured w)) /\ kw (last_of d (measured w)) r
  end.
Lemma ks_kw ws : forall d d', ks d' ws -> d' = None \/ d' = d -> Forall (fun w => measured w <> []) ws -> kw d ws.
Proof.
  induction ws as [|w ws IH]; intros d d' K D F; [exact I|]. destruct K as [K1 K2]. inversion F as [|? ? F1 F2]; subst. split; [eauto|].
  eapply IH; [exact K2| |exact F2]. right. unfold last_of. destruct (rev (measured w)) eqn:E; [|reflexivity].
  apply (f_equal (@rev _)) in E. rewrite rev_involutive in E. cbn in E. congruence.
Qed.
Lemma kw_app a b : forall d, kw d (a ++ b) <-> kw d a /\ kw (last_of d (measured_all a)) b.
Proof.
  induction a as [|w a IH]; intros d; cbn [app kw measured_all flat_map]; [tauto|]. rewrite IH. fold (measured_all a). rewrite last_of_app. tauto.
Qed.
Lemma ks_all ws : forall d, ks d ws -> adjusted_all ws = kerned_text d (measured_all ws).
Proof.
  induction ws as [|w ws IH]; intros d K; [reflexivity|]. destruct K as [K1 K2]. unfold adjusted_all, measured_all in *. cbn [flat_map].
  rewrite kerned_text_app, K1. f_equal. apply IH, K2.
Qed.
Lemma ks_snoc a w : forall d, ks d a -> adjusted w = kerned_text (last_of d (measured_all a)) (measured w) -> ks d (a ++ [w]).
Proof.
  induction a as [|x a IH]; intros d K A; cbn [app ks]; [split; [exact A|exact I]|]. destruct K as [K1 K2]. split; [exact K1|]. apply IH; [exact K2|].
  rewrite A. f_equal. unfold measured_all. cbn [flat_map]. apply last_of_app.
Qed.
Lemma word_new_ok s st prev w : all_split -> word_new s st prev = Ok w -> measured_word w = styled_str s st.
Proof. intros HY E. destruct (word_new_spec s st prev HY) as (w' & E' & M & _). rewrite E in E'. apply Ok_inj in E'. subst w'. exact M. Qed.
Lemma styled_nonempty t (st : @state QcNum) : t <> [] -> styled_str t st <> [].
Proof. destruct t; [congruence|discriminate]. Qed.
Lemma simple_words_ks : all_split -> forall fuel t st prev ws last, t <> [] -> simple_words fuel t st prev = Ok (ws, last) ->
  ks (at_ st prev) (map WWord ws) /\ Forall (fun w => measured w <> []) (map WWord ws)
  /\ match last with
     | inl r => True
     | inr w => adj_word w = kerned_text (last_of (at_ st prev) (measured_all (map WWord ws))) (measured_word w) /\ measured_word w <> []
     end.
Proof.
  intros HY. induction fuel as [|fuel IH]; intros t st prev ws last N E; [discriminate|]. cbn [simple_words] in E.
  destruct (split_word t) as [[w r]|] eqn:SW.
  2:{ apply Ok_inj in E. injection E as <- <-. repeat split. constructor. }
  destruct (split_word_app _ _ _ SW) as (-> & NW & _). apply bind_ok in E as (x & E1 & E).
  pose proof (word_new_ok _ _ _ _ HY E1) as M. destruct (word_new_adj _ _ _ _ HY E1) as [A _].
  destruct r as [|cr r0] eqn:ER.
  - apply Ok_inj in E. injection E as <- <-. split; [exact I|]. split; [constructor|]. rewrite M. split; [exact A|apply styled_nonempty, NW].
  - rewrite <- ER in *. apply bind_ok in E as ([ws' l'] & E2 & E). apply Ok_inj in E. injection E as <- <-. cbn [fst snd].
    assert (NR : r <> []) by (rewrite ER; discriminate).
    destruct (IH _ _ _ _ _ NR E2) as (K & F & L). cbn [map ks measured adjusted].
    rewrite M, (last_of_str _ _ _ NW). split; [split; [exact A|exact K]|]. split; [constructor; [cbn; rewrite M; apply styled_nonempty, NW|exact F]|].
    destruct l'; [exact I|]. unfold measured_all in *. cbn [flat_map measured]. rewrite last_of_app, M, (last_of_str _ _ _ NW). exact L.
Qed.
Lemma with_cmd_adj w cmd : adjusted (with_cmd (WWord w) cmd) = adj_word w /\ measured (with_cmd (WWord w) cmd) = measured_word w.
Proof. unfold with_cmd. destruct cmd; split; reflexivity. Qed.
Lemma kw_free ws : forall d, (exists w r, ws = w :: r /\ adjusted w = kerned_text None (measured w) /\ measured w <> []) -> kw None ws -> kw d ws.
Proof.
  intros d (w & r & -> & A & N) [_ K]. split; [exists None; auto|]. revert K. unfold last_of.
  destruct (rev (measured w)) eqn:E; [|auto]. apply (f_equal (@rev _)) in E. rewrite rev_involutive in E. cbn in E. congruence.
Qed.
Lemma parse_loop_kw : all_split -> forall fuel it st t ws ex, Forall (fun p : passage => snd p <> []) it ->
  parse_loop fuel it st t = Ok (ws, ex) -> forall d, kw d ws.
Proof.
  intros HY. induction fuel as [|fuel IH]; intros it st t ws ex HF E d; [discriminate|]. cbn [parse_loop] in E.
  destruct t as [|c0 t0] eqn:ET; [apply Ok_inj in E; injection E as <- <-; exact I|]. rewrite <- ET in *.
  assert (NT : t <> []) by (rewrite ET; discriminate). clear ET.
  apply bind_ok in E as ([sw last] & E1 & E). destruct (simple_words_ks HY _ _ _ _ _ _ NT E1) as (K & F & L).
  destruct (simple_words_spec (S (List.length t)) t st None HY ltac:(lia) NT) as (sw' & last' & E1' & _ & _ & L').
  rewrite E1 in E1'. apply Ok_inj in E1'. injection E1' as <- <-.
  assert (FIN : forall w st' it' ws' ex', Forall (fun p : passage => snd p <> []) it' ->
    (exists p, (p = None \/ p = last_of d (measured_all (map WWord sw))) /\ adj_word w = kerned_text p (measured_word w)) ->
    match it' with
    | [] => Ok (map WWord sw ++ [WWord w], true)
    | (cmd, t) :: it'' => do y <- parse_loop fuel it'' (apply cmd st') t; Ok (map WWord sw ++ with_cmd (WWord w) cmd :: fst y, snd y)
    end = Ok (ws', ex') -> kw d ws').
  { intros w st' it' ws' ex' HF' P E'. assert (K' : kw d (map WWord sw)) by (eapply ks_kw; [exact K|left; reflexivity|exact F]).
    destruct it' as [|[cmd t'] it''].
    - apply Ok_inj in E'. injection E' as <- <-. apply kw_app. split; [exact K'|]. split; [exact P|exact I].
    - apply bind_ok in E' as ([y1 y2] & EY & E'). apply Ok_inj in E'. injection E' as <- <-. cbn [fst]. apply kw_app. split; [exact K'|].
      cbn [kw]. destruct (with_cmd_adj w cmd) as [-> ->]. split; [exact P|]. inversion HF'; subst. eapply IH; [eassumption|exact EY]. }
  destruct last as [head|w].
  - destruct L' as (_ & NH & _). apply bind_ok in E as ([w next] & E2 & E). pose proof (complete_word_adj _ _ _ _ _ HY HF NH E2) as A.
    destruct (complete_word_spec it head st HY NH) as (w1 & n1 & E2' & M1). rewrite E2 in E2'. apply Ok_inj in E2'. injection E2' as <- <-.
    assert (K' : kw d (map WWord sw)) by (eapply ks_kw; [exact K|left; reflexivity|exact F]).
    assert (P : exists p, (p = None \/ p = last_of d (measured_all (map WWord sw))) /\ adj_word w = kerned_text p (measured_word w)) by (exists None; auto).
    destruct next as [[r it']|].
    + destruct M1 as (a & c & t' & -> & _). apply Forall_app in HF as [_ HF]. inversion HF as [|? ? _ HF']; subst.
      destruct r as [|c1 r1].
      * eapply FIN; [exact HF'|exact P|exact E].
      * apply bind_ok in E as ([y1 y2] & EY & E). apply Ok_inj in E. injection E as <- <-. cbn [fst]. apply kw_app. split; [exact K'|].
        cbn [kw]. split; [exact P|]. eapply IH; [exact HF'|exact EY].
    + apply Ok_inj in E. injection E as <- <-. apply kw_app. split; [exact K'|]. split; [exact P|exact I].
  - eapply FIN; [exact HF| |exact E]. destruct L as [L NL]. destruct sw as [|x sw].
    + exists None. split; [left; reflexivity|exact L].
    + eexists. split; [right; reflexivity|]. rewrite L. f_equal. cbn [map] in *. inversion F as [|? ? F1 F2]; subst.
      unfold measured_all. cbn [flat_map]. rewrite !last_of_app. f_equal. unfold last_of.
      destruct (rev (measured (WWord x))) eqn:EX; [|reflexivity]. apply (f_equal (@rev _)) in EX. rewrite rev_involutive in EX. exfalso. exact (F1 EX).
Qed.
End Proofs.

(** ** C75.  Full claim: the words made from a styled text move every character as the
    font's kerning table says for it and the character before it (if both are in the same
    font and size):  [adjusted_all ws = kerned_text None (styled ps st)].

    It holds within words, whatever their syllables, styles and trailing spaces; and every
    word is kerned with the end of the previous word or with nothing. *)
Theorem C75_words_kerned_partial : forall (ENV : Env QcNum) ps st cmd ws ex,
  all_split -> Forall (fun p : passage => snd p <> []) ps -> into_words ps st = Ok (cmd, ws, ex) ->
  measured_all ws = styled ps st
  /\ forall a w b, ws = a ++ w :: b ->
     exists p, (p = None \/ p = last_of None (measured_all a)) /\ adjusted w = kerned_text p (measured w).
Proof.
  intros ENV ps st cmd ws ex HY HF E.
  split; [apply (C25_words_keep_style_nonempty _ _ _ _ _ _ _ HY HF E)|].
  assert (K : kw None ws).
  { unfold into_words in E. destruct (fold_commands ps st []) as [[cmd' x] st'] eqn:FC.
    destruct ps as [|[c t] ps]; cbn [fold_commands] in FC.
    { injection FC as <- <- <-. apply Ok_inj in E. injection E as <- <- <-. exact I. }
    inversion HF as [|? ? N HF']; subst. destruct t as [|c0 t0]; [cbn in N; congruence|]. injection FC as <- <- <-.
    apply bind_ok in E as ([y1 y2] & EY & E). apply Ok_inj in E. injection E as <- <- <-. cbn [fst]. eapply parse_loop_kw; eassumption. }
  intros a w b ->. apply kw_app in K as [_ [K _]]. exact K.
Qed.
Print Assumptions C75_words_kerned_partial.
(** Text in one style: all of it is kerned if it ends at a place for a line break; if
    not, all but the last word, and the last word by itself. *)
Theorem C75_one_style_partial : forall (ENV : Env QcNum) c t st cmd ws ex,
  all_split -> t <> [] -> into_words [(c, t)] st = Ok (cmd, ws, ex) ->
  measured_all ws = styled_str t (apply c st)
  /\ if ends_at_break t then adjusted_all ws = kerned_text None (styled_str t (apply c st))
     else exists a w, ws = a ++ [w] /\ adjusted_all a = kerned_text None (measured_all a) /\ adjusted w = kerned_text None (measured w).
Proof.
  intros ENV c t st cmd ws ex HY N E.
  assert (M : measured_all ws = styled_str t (apply c st)).
  { pose proof (C25_words_keep_style_nonempty _ _ [(c, t)] st _ _ _ HY ltac:(repeat constructor; exact N) E) as [_ M].
    rewrite M. cbn [styled]. apply app_nil_r. }
  split; [exact M|]. rewrite <- M. unfold into_words in E. cbn [fold_commands] in E.
  destruct t as [|c0 t0] eqn:ET; [congruence|]. rewrite <- ET in *. cbn iota in E. apply bind_ok in E as ([y1 y2] & EY & E).
  apply Ok_inj in E. injection E as <- <- <-. cbn [fst] in *. cbn [parse_loop List.length] in EY. rewrite ET in EY. cbn iota in EY. rewrite <- ET in EY. clear ET.
  apply bind_ok in EY as ([sw last] & E1 & EY). destruct (simple_words_ks HY _ _ _ _ _ _ N E1) as (K & _ & L).
  destruct (simple_words_spec (S (List.length t)) t (apply c st) None HY ltac:(lia) N) as (sw' & last' & E1' & _ & _ & L').
  rewrite E1 in E1'. apply Ok_inj in E1'. injection E1' as <- <-. destruct last as [head|w].
  - destruct L' as (_ & NH & SH & t1 & -> & _). rewrite ends_at_break_app by exact NH. rewrite (split_word_none _ SH).
    apply bind_ok in EY as ([w next] & E2 & EY).
    pose proof (complete_word_adj [] _ _ _ _ HY (Forall_nil _) NH E2) as A.
    assert (next = None). { unfold complete_word in E2. cbn [take_parts] in E2. apply bind_ok in E2 as (? & _ & E2). apply Ok_inj in E2. congruence. }
    subst next. apply Ok_inj in EY. injection EY as <- <-. exists (map WWord sw), (WWord w). split; [reflexivity|]. split; [apply ks_all, K|exact A].
  - destruct L' as (_ & _ & _ & ->). apply Ok_inj in EY. injection EY as <- <-. apply ks_all. destruct L as [L _]. apply ks_snoc; [exact K|exact L].
Qed.
Print Assumptions C75_one_style_partial.
Definition adj_of (r : res (@command QcNum * list (@wordlike QcNum) * bool)) : list (char * Q) :=
  match r with Ok (_, ws, _) => map (fun x => (fst (fst x), this (snd x))) (adjusted_all ws) | Err _ => [] end.
(** kerned within "AV", across the syllables "A" and "V"; but not between styles *)
Example C75_example :
  let ps := [(NoOp, str_of "xAV A"); (ex_set_bold, str_of "V Av")] in
  @all_split QcNum ex_words /\ Forall (fun p : @passage QcNum => snd p <> []) ps
  /\ is_ok (@into_words QcNum ex_words ps ex_state) = true
  /\ map snd (adj_of (@into_words QcNum ex_words ps ex_state)) = [0; 0; -80 # 1; 0; 0; 0; 0; 0; 0]%Q
  /\ ends_at_break (str_of "xAV A ") = true.
Proof.
  cbv zeta. split; [exact ex_splits|]. split; [repeat constructor; discriminate|]. repeat split; vm_compute; reflexivity.
Qed.
(** The full claim is false.  With the metrics of the standard fonts, "go To" is not
    kerned between the space and the T, but "go To " is. *)
#[local] Instance ex_standard : Env QcNum := {|
  charwidth := fun f c => match f_face f with TBuiltin b => nZ (builtin_width b (f_bold f) (f_italic f) c) | _ => nZ 500 end;
  kerntab := fun f => match f_face f with TBuiltin b => Some (fun x y => nZ (builtin_kern b (f_bold f) (f_italic f) x y)) | _ => None end;
  hyphenator := fun _ w => [w];
  is_wordchar := fun c => negb (c =? 32)%N |}.
Definition kerns_of (t : str) : list Z :=
  match into_words [(NoOp, t)] ex_state with Ok (_, ws, _) => map (fun x => Qnum (this (snd x))) (adjusted_all ws) | Err _ => [] end.
Definition kerns_meant (t : str) : list Z := map (fun x => Qnum (this (snd x))) (kerned_text None (styled_str t (apply NoOp ex_state))).
Theorem C75_kerning_refuted :
  kerns_meant (str_of "go To") = [0; 0; 0; -50; -120]%Z /\ kerns_of (str_of "go To") = [0; 0; 0; 0; -120]%Z
  /\ kerns_of (str_of "go To ") = [0; 0; 0; -50; -120; 0]%Z.
Proof. repeat split; vm_compute; reflexivity. Qed.
Print Assumptions C75_kerning_refuted.
