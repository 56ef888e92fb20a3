(** * LayoutStyle: optimal paragraphs keep their styles.
    A style change after a word that is nothing but a space is lost by the optimal line
    breaking (C45); a word of one space only arises from a space that stands alone. *)
From Coq Require Import QArith Qcanon Lqa.
From Verif Require Import Base Num Fonts State Style TextSpec StateProofs Words WordsSpec WordProofs WordOps
  Parse Render RenderSpec Firstfit LineSpec FirstfitProofs WordWidth FirstfitWidth KnuthPlass Optimum
  Common Draw TextBlock Layout LayoutSpec LayoutProofs LayoutText LayoutPages LayoutRoom Properties_Style Properties_Text
  Properties_Firstfit Properties_Optimum.
Open Scope nat_scope.

(** A space that stands alone at the end of the string, or of one of its lines: it is the first
    character of the string, or comes right after a line break, hyphen, ZERO WIDTH SPACE
    or EM DASH. *)
Definition lone_space (t : str) : Prop :=
  exists a b, t = a ++ 32%N :: b
    /\ (b = [] \/ exists b', b = 10%N :: b' \/ b = 13%N :: 10%N :: b')
    /\ (a = [] \/ exists a' c, a = a' ++ [c] /\ In c [10; 45; 8203; 8212]%N).

(** a check for it *)
Definition stops (b : str) : bool := match b with [] => true | 10 :: _ => true | 13 :: 10 :: _ => true | _ => false end%N.
Fixpoint lone_in (start : bool) (t : str) : bool :=
  match t with
  | [] => false
  | c :: r => (start && (c =? 32)%N && stops r) || lone_in (existsb (N.eqb c) [10; 45; 8203; 8212]%N) r
  end.
Lemma no_lone_space t : lone_in true t = false -> ~ lone_space t.
Proof.
  intros E (a & b & -> & H & K).
  assert (G : forall a start, (a = [] -> start = true) -> (a = [] \/ exists a' c, a = a' ++ [c] /\ In c [10; 45; 8203; 8212]%N) ->
    lone_in start (a ++ 32%N :: b) = true).
  { clear E K a. induction a as [|x a IH]; intros start S0 K.
    - cbn [app lone_in]. rewrite S0 by reflexivity. change (32 =? 32)%N with true.
      destruct H as [->|(b' & [->| ->])]; reflexivity.
    - cbn [app lone_in]. rewrite IH; [apply orb_true_r| |].
      + intros ->. destruct K as [K|(a' & c & K & D)]; [discriminate|]. destruct a' as [|y [|]]; try discriminate. injection K as ->.
        apply existsb_exists. exists c. split; [exact D|apply N.eqb_refl].
      + destruct K as [K|(a' & c & K & D)]; [discriminate|]. destruct a' as [|y a']; [left; injection K as _ ->; reflexivity|].
        injection K as -> ->. right. eauto. }
  rewrite G in E; [discriminate|reflexivity|exact K].
Qed.
Lemma split_newline_app t b r : split_newline t = Some (b, r) -> t = b ++ 10%N :: r \/ t = b ++ 13%N :: 10%N :: r.
Proof.
  revert b r. induction t as [|c t IH]; intros b r E; [discriminate|]. cbn in E.
  destruct (N.eqb_spec c 10) as [->|_]; [injection E as <- <-; left; reflexivity|].
  destruct t as [|d t]; [discriminate|]. destruct ((c =? 13) && (d =? 10))%N eqn:E1.
  - apply andb_true_iff in E1 as [E1 E2]. apply N.eqb_eq in E1, E2. subst. injection E as <- <-. right. reflexivity.
  - destruct (split_newline (d :: t)) as [[x y]|] eqn:E2; [|discriminate]. cbn in E. injection E as <- <-.
    destruct (IH x y eq_refl) as [->| ->]; auto.
Qed.
Lemma lone_after p c r : In c [10; 45; 8203; 8212]%N -> lone_space r -> lone_space (p ++ c :: r).
Proof.
  intros I (a & b & -> & H & K). exists (p ++ c :: a), b. split; [rewrite <- app_assoc; reflexivity|]. split; [exact H|].
  right. destruct K as [->|(a' & d & -> & D)].
  - exists p, c. auto.
  - exists (p ++ c :: a'), d. split; [rewrite <- app_assoc; reflexivity|exact D].
Qed.
Lemma lone_pieces t b r : split_newline t = Some (b, r) -> ~ lone_space t -> ~ lone_space b /\ ~ lone_space r.
Proof.
  intros E N. apply split_newline_app in E. split; intros L; apply N.
  - destruct L as (a & b' & -> & H & K). exists a. destruct E as [->| ->]; rewrite <- !app_assoc; cbn [app];
      (eexists; split; [reflexivity|]); (split; [|exact K]); right;
      (destruct H as [->|(x & [->| ->])]; cbn [app]; eauto).
  - destruct E as [->| ->].
    + apply lone_after; cbn; auto.
    + change (b ++ 13%N :: 10%N :: r) with (b ++ [13%N] ++ 10%N :: r). rewrite app_assoc. apply lone_after; cbn; auto.
Qed.

Section Style.
Context {NUM : Num} {ENV : Env NUM}.
Local Notation tidy := (Forall (fun p : passage => ~ lone_space (snd p))).
Lemma group_tidy fuel : forall cmd txt cont it, tidy it -> ~ lone_space txt ->
  let '(g, nxt) := group fuel cmd txt cont it in
  tidy g /\ match nxt with Some (_, t, it') => ~ lone_space t /\ tidy it' | None => True end.
Proof.
  induction fuel as [|fuel IH]; intros cmd txt cont it F N; cbn [group]; [split; [constructor|exact I]|].
  destruct (split_newline txt) as [[b r]|] eqn:E.
  - destruct (lone_pieces _ _ _ E N) as (N1 & N2). split; [|auto]. constructor; [exact N1|constructor].
  - destruct it as [|[c' t'] it'].
    + split; [|exact I]. constructor; [exact N|constructor].
    + inversion F; subst. specialize (IH c' t' false it' ltac:(assumption) ltac:(assumption)).
      destruct (group fuel c' t' false it') as [g nxt]. destruct IH as [IH1 IH2]. split; [|exact IH2].
      constructor; [exact N|exact IH1].
Qed.
Lemma groups_tidy fuel : forall cmd txt cont it, ~ lone_space txt -> tidy it -> Forall tidy (groups fuel cmd txt cont it).
Proof.
  induction fuel as [|fuel IH]; intros cmd txt cont it N F; cbn [groups]; [constructor|].
  pose proof (group_tidy (S (List.length it)) cmd txt cont it F N) as H.
  destruct (group (S (List.length it)) cmd txt cont it) as [g nxt]. destruct H as (H1 & H2). constructor; [exact H1|].
  destruct nxt as [[[c t] it']|]; [|constructor]. destruct H2. apply IH; assumption.
Qed.
Lemma splitlines_tidy ps : tidy ps -> Forall tidy (splitlines ps).
Proof.
  intros F. destruct ps as [|[cmd txt] it]; [constructor|]. unfold splitlines. inversion F as [|? ? N F']; subst.
  apply groups_tidy; assumption.
Qed.

(** ** Words *)
Definition boxed (w : wordlike) : Prop := forall x c, w = WCmd (WWord x) c -> w_boxes x <> [].
Lemma split_word_last t w r : split_word t = Some (w, r) ->
  exists w' c, w = w' ++ [c] /\ (break_char c = true \/ forall b, r <> 32%N :: b).
Proof.
  revert w. induction t as [|c t IH]; intros w E; [discriminate|]. cbn in E. destruct (is_space c) eqn:S1.
  - destruct (take_while is_space t) as [sp r'] eqn:T. injection E as <- <-.
    pose proof (take_while_stop _ _ _ _ T) as ST.
    destruct (@exists_last _ (c :: sp) ltac:(discriminate)) as (w' & d & D). exists w', d. split; [exact D|].
    right. intros b ->. cbn in ST. discriminate.
  - destruct (break_char c) eqn:B.
    + injection E as <- <-. exists [], c. auto.
    + destruct (split_word t) as [[w' r']|] eqn:E2; [|discriminate]. cbn in E. injection E as <- <-.
      destruct (IH w' eq_refl) as (w2 & d & -> & H). exists (c :: w2), d. auto.
Qed.
Lemma break_In c : break_char c = true -> In c [10; 45; 8203; 8212]%N.
Proof.
  unfold break_char. intros B. repeat (apply orb_true_iff in B as [B|B]); apply N.eqb_eq in B; subst c; cbn; auto.
Qed.
Lemma split_word_rest t w r : split_word t = Some (w, r) -> ~ lone_space t -> ~ lone_space r.
Proof.
  intros E N L. apply N. destruct (split_word_app _ _ _ E) as (-> & _).
  destruct (split_word_last _ _ _ E) as (w' & c & -> & H). destruct L as (a & b & -> & K & [->|(a' & d & -> & D)]).
  - destruct H as [H|H]; [|exfalso; eapply H; reflexivity]. exists (w' ++ [c]), b. split; [reflexivity|]. split; [exact K|].
    right. exists w', c. split; [reflexivity|]. apply break_In, H.
  - exists ((w' ++ [c]) ++ a' ++ [d]), b. split; [rewrite <- !app_assoc; reflexivity|]. split; [exact K|].
    right. exists ((w' ++ [c]) ++ a'), d. split; [rewrite <- !app_assoc; reflexivity|exact D].
Qed.
Lemma new_boxes s st prev w : all_split -> s <> [] -> ~ lone_space s -> word_new s st prev = Ok w -> w_boxes w <> [].
Proof.
  intros HY NE N E B. destruct (word_new_spec s st prev HY) as (w' & E' & M & _). rewrite E in E'. apply Ok_inj in E'. subst w'.
  unfold measured_word in M. rewrite B in M. cbn [flat_map app] in M. destruct (w_tail w).
  - destruct s as [|c [|d s]]; try discriminate M. cbn in M. injection M as M _. apply N. exists [], []. subst c. auto.
  - destruct s; [congruence|discriminate M].
Qed.
Lemma simple_boxes fuel : forall t st prev ws w, all_split -> ~ lone_space t ->
  simple_words fuel t st prev = Ok (ws, inr w) -> w_boxes w <> [].
Proof.
  induction fuel as [|fuel IH]; intros t st prev ws w HY N E; cbn [simple_words] in E; [discriminate|].
  destruct (split_word t) as [[x r]|] eqn:SW; [|discriminate]. apply bind_ok in E as (y & WN & E).
  destruct r as [|c r].
  - apply Ok_inj in E. injection E as _ <-. destruct (split_word_app _ _ _ SW) as (-> & NE & _). rewrite app_nil_r in N.
    eapply new_boxes; eauto.
  - apply bind_ok in E as ([ws' l] & SI & E). apply Ok_inj in E. injection E as _ ->.
    eapply IH; [exact HY| |exact SI]. eapply split_word_rest; eauto.
Qed.
Lemma take_parts_tidy it : forall parts t it', tidy it -> take_parts it = (parts, Some (t, it')) -> ~ lone_space t /\ tidy it'.
Proof.
  induction it as [|[c t0] it IH]; intros parts t it' F E; cbn [take_parts] in E; [discriminate|]. inversion F; subst.
  destruct (split_word t0) as [[w r]|] eqn:SW.
  - injection E as _ <- <-. split; [|assumption]. eapply split_word_rest; eauto.
  - destruct (take_parts it) as [ps x]. injection E as _ ->. eauto.
Qed.
Lemma complete_tidy it head st w t it' : tidy it -> complete_word it head st = Ok (w, Some (t, it')) ->
  w_boxes w <> [] /\ ~ lone_space t /\ tidy it'.
Proof.
  intros F E. unfold complete_word in E. destruct (take_parts it) as [parts next] eqn:TP. destruct parts as [|p parts].
  - apply bind_ok in E as (x & _ & E). discriminate.
  - match type of E with context [segments ?a ?b ?c ?d ?e] => destruct (segments a b c d e) as [[segs prev] st'] end.
    apply Ok_inj in E. injection E as <- ->. split; [discriminate|]. eapply take_parts_tidy; eauto.
Qed.
Lemma with_cmd_boxed w c : w_boxes w <> [] -> boxed (with_cmd (WWord w) c).
Proof. intros N x d E. destruct c; cbn in E; try discriminate; injection E as -> _; exact N. Qed.
Lemma words_boxed ws : Forall boxed (map WWord ws).
Proof. apply Forall_forall. intros x I y c ->. apply in_map_iff in I as (? & ? & _). discriminate. Qed.
Lemma parse_boxed fuel : forall it st t ws ex, all_split -> tidy it -> ~ lone_space t ->
  parse_loop fuel it st t = Ok (ws, ex) -> Forall boxed ws.
Proof.
  induction fuel as [|fuel IH]; intros it st t ws ex HY F N E; cbn [parse_loop] in E; [discriminate|].
  destruct t as [|c t]; [apply Ok_inj in E; injection E as <- _; constructor|].
  apply bind_ok in E as ([sw last] & SW & E). cbv zeta in E.
  assert (FIN : forall last st it, tidy it -> w_boxes last <> [] ->
     match it with
     | [] => Ok (map WWord sw ++ [WWord last], true)
     | (cmd, t0) :: it' => do y <- parse_loop fuel it' (apply cmd st) t0; Ok (map WWord sw ++ with_cmd (WWord last) cmd :: fst y, snd y)
     end = Ok (ws, ex) -> Forall boxed ws).
  { clear E. intros l s [|[cmd t0] it'] F' B E.
    - apply Ok_inj in E. injection E as <- _. apply Forall_app; split; [apply words_boxed|apply (words_boxed [l])].
    - apply bind_ok in E as ([y1 y2] & P & E). apply Ok_inj in E. injection E as <- _. inversion F'; subst.
      apply Forall_app; split; [apply words_boxed|]. constructor; [apply with_cmd_boxed, B|]. eapply IH; eauto. }
  destruct last as [head|w].
  - apply bind_ok in E as ([w next] & CW & E). destruct next as [[r it']|].
    + destruct (complete_tidy _ _ _ _ _ _ F CW) as (B & N' & F'). destruct r as [|d r].
      * eapply FIN; eauto.
      * apply bind_ok in E as ([z1 z2] & P & E). apply Ok_inj in E. injection E as <- _.
        apply Forall_app; split; [apply words_boxed|]. constructor; [intros x c0 X; discriminate X|]. eapply IH; eauto.
    + apply Ok_inj in E. injection E as <- _. apply Forall_app; split; [apply words_boxed|apply (words_boxed [w])].
  - eapply FIN; [exact F| |exact E]. eapply simple_boxes; eauto.
Qed.
Lemma fold_tidy it : forall st buf c t it' st', tidy it -> fold_commands it st buf = (c, Some (t, it'), st') ->
  ~ lone_space t /\ tidy it'.
Proof.
  induction it as [|[c0 t0] it IH]; intros st buf c t it' st' F E; cbn [fold_commands] in E; [discriminate|]. inversion F; subst.
  destruct t0 as [|d t0]; [eapply IH; eauto|]. injection E as _ <- <- _. auto.
Qed.
Lemma into_boxed g st cmd ws ex : all_split -> tidy g -> into_words g st = Ok (cmd, ws, ex) -> Forall boxed ws.
Proof.
  intros HY F E. unfold into_words in E. destruct (fold_commands g st []) as [[c x] s] eqn:FC. destruct x as [[t it]|].
  - apply bind_ok in E as ([y1 y2] & P & E). apply Ok_inj in E. injection E as _ <- _.
    destruct (fold_tidy _ _ _ _ _ _ _ F FC). eapply parse_boxed; eauto.
  - apply Ok_inj in E. injection E as _ <- _. constructor.
Qed.
Lemma indent_boxed ws x ws' : indent_first ws x = Ok ws' -> Forall boxed ws -> Forall boxed ws'.
Proof.
  destruct ws as [|w ws]; cbn [indent_first]; intros E F; [apply Ok_inj in E; subst; constructor|].
  apply bind_ok in E as (w' & E & E2). apply Ok_inj in E2. subst ws'. inversion F as [|? ? B F']; subst. constructor; [|exact F'].
  intros y c ->. destruct w as [b|w|w c0]; cbn in E.
  - apply rmap_inv in E as (? & _ & X). discriminate.
  - apply rmap_inv in E as (? & _ & X). discriminate.
  - destruct (ntruthy x); [|apply Ok_inj in E; injection E as -> ->; eapply B; reflexivity].
    apply rmap_inv in E as (w2 & E & X). injection X as <- _. destruct w as [b|w|w c1]; cbn in E.
    + apply rmap_inv in E as (? & _ & X). discriminate.
    + apply rmap_inv in E as (w3 & E & X). injection X as <-. specialize (B w c0 eq_refl). unfold word_indent in E.
      destruct (ntruthy x); [|apply Ok_inj in E; subst; exact B]. destruct (w_boxes w); [congruence|].
      apply rmap_inv in E as (? & _ & ->). discriminate.
    + destruct (ntruthy x); [apply rmap_inv in E as (? & _ & X); discriminate|discriminate].
Qed.

(** ** Paragraphs *)
Lemma shape_style fuel p ws cols ae lead chunks : paragraph_words ws -> heights_ok p cols lead ->
  (p_optimal p <> None -> Forall boxed ws) ->
  shape fuel p ws cols ae lead = Ok chunks -> forall s, coh_all ws s ->
  coh_all (text_words (concat chunks)) s /\ end_all (text_words (concat chunks)) s = end_all ws s.
Proof.
  intros PW H B E s C. destruct (p_optimal p) as [[tolerance P]|] eqn:EO; [|eapply ff_shape_style; eauto].
  unfold shape in E. rewrite EO in E. apply rmap_inv in E as (out & E & ->). destruct H as [H|H]; [congruence|].
  assert (W : text_words (concat (map (map opt_tline) out)) = flat_map ol_words (concat out)).
  { unfold text_words. rewrite <- (concat_map opt_tline), !flat_map_concat_map, map_map. reflexivity. }
  rewrite W. eapply C45_optimum_keeps_style_partial; eauto. intros x c I.
  specialize (B ltac:(discriminate)). rewrite Forall_forall in B. exact (B _ I x c eq_refl).
Qed.
Lemma run_styles_any fuel p lead gs : forall cs st cks, all_split -> Forall text_group gs ->
  (p_optimal p <> None -> Forall tidy gs) ->
  run_heights fuel p lead gs cs st cks ->
  Forall2 (fun line chunks => conserves (map (fun l => measured_all (tl_words l)) (concat chunks)) line)
          (styled_groups gs st) cks
  /\ Forall (Forall (fun ls => exists s, coh_all (text_words ls) s)) cks
  /\ Forall (fun l => tl_cmd l = NoOp) (concat (concat cks)).
Proof.
  induction gs as [|g gs IH]; intros cs st cks HY T N R; inversion R; subst; [repeat split; constructor|].
  inversion T as [|? ? T1 T2]; subst.
  destruct (text_group_words g st HY T1) as (cmd' & ws0 & W & M & C & EN & Z).
  match goal with H : into_words g st = Ok (cmd, ws, ex) |- _ => rename H into W1 end. rewrite W in W1. apply Ok_inj in W1. injection W1 as <- <- <-.
  match goal with H : indent_first _ _ = Ok _ |- _ => destruct (indent_measured _ _ _ H) as (M1 & EE & CC); assert (PW : paragraph_words ws') by (eapply pw_indented; [eapply pw_parsed; exact W|exact H]); rename H into II end.
  match goal with H : shape _ _ _ _ _ _ = Ok _ |- _ => rename H into SH end.
  match goal with H : heights_ok _ _ _ |- _ => rename H into HO end.
  assert (BX : p_optimal p <> None -> Forall boxed ws').
  { intros NO. eapply indent_boxed; [exact II|]. eapply into_boxed; [exact HY| |exact W]. specialize (N NO). inversion N; assumption. }
  destruct (shape_style _ _ _ _ _ _ _ PW HO BX SH _ (CC _ C)) as (C2 & E2).
  match goal with H : true = true -> _ |- _ => destruct (H eq_refl) as (cs' & RR) end.
  rewrite states_after_end, E2, EE, EN in RR. apply IH in RR as (I1 & I2 & I3); auto.
  2:{ intros NO. specialize (N NO). inversion N; assumption. }
  split; [|split].
  - cbn [styled_groups]. constructor; [|exact I1]. rewrite <- M, <- M1. eapply shape_text; eauto.
  - constructor; [|exact I2]. eapply coherent_chunks; eauto.
  - cbn [concat]. rewrite concat_app. apply Forall_app; split; [|exact I3]. eapply shape_cmd; eauto.
Qed.
Lemma run_passages_tidy ps : forall s l, run_passages ps s = strings_at l ->
  Forall (fun p => ~ lone_space (fst p)) l -> tidy ps.
Proof.
  induction ps as [|[c t] ps IH]; intros s l E F; [constructor|]. destruct l as [|[t' f] l]; [discriminate|].
  cbn in E. injection E as E1 E2 E3. inversion F; subst. constructor; [assumption|eapply IH; eauto].
Qed.
End Style.
(** text and styles of any paragraph *)
Lemma para_styles {ENV : Env QcNum} h fuel base p cs out : all_split -> para_begins base p ->
  (p_optimal p <> None -> Forall (fun x => ~ lone_space (fst x)) (span_strings base (ISpan (p_style p) (p_content p)))) ->
  (0 < para_lead base p)%Qc -> (para_lead base p <= h)%Qc -> roomy_from h cs ->
  para_columns fuel p base cs = Ok out ->
  exists added rows, added <> [] /\ adds cs added out
    /\ Forall2 conserves rows (para_lines base p) /\ concat rows = para_shape_lines (concat added)
    /\ Forall (fun s => exists ls, s = chunk (para_lead base p) (p_align p) ls
         /\ Forall (fun l => tl_cmd l = NoOp) ls /\ exists st, coh_all (text_words ls) st) (concat added).
Proof.
  intros HY B L LP LH RM E. unfold para_columns in E. destruct (para_groups base p QcNum_exact B) as (T & S).
  change (max_lead _ _) with (para_lead base p) in E.
  pose proof (C20_nested_spans QcNum QcNum_exact (full_or base (p_style p)) (p_style p) (p_content p)) as RP.
  rewrite para_strings in RP.
  assert (TD : p_optimal p <> None -> Forall (Forall (fun q : passage => ~ lone_space (snd q)))
    (splitlines (flatten (full_or base (p_style p)) (p_style p) (p_content p)))).
  { intros NO. apply splitlines_tidy. eapply run_passages_tidy; [exact RP|exact (L NO)]. }
  set (sty := full_or base (p_style p)) in *. set (gs := splitlines _) in *.
  apply para_loop_run in E as (added & cks & NE & A & R & CO).
  apply (run_roomy h) in R; auto. apply run_styles_any in R as (R1 & R2 & R3); auto. rewrite S in R1.
  exists added, (map (fun chunks => map (fun l => measured_all (tl_words l)) (concat chunks)) cks).
  split; [exact NE|]. split; [exact A|]. split; [|split].
  - clear -R1. induction R1; constructor; auto.
  - unfold para_shape_lines. rewrite CO, shape_lines_chunks, <- concat_map_map, map_map. reflexivity.
  - rewrite CO. clear -R2 R3. apply Forall_map. apply Forall_concat in R2.
    induction (concat cks) as [|ls l IH]; [constructor|]. cbn [concat] in R3. apply Forall_app in R3 as (R3 & R4).
    inversion R2; subst. constructor; [eexists; eauto|auto].
Qed.
