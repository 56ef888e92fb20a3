(** * StateProofs: proofs about State.v and Style.v (C19-C23) *)
From Coq Require Permutation.
From Coq Require Import QArith Qcanon Lqa.
From Verif Require Import Base Gfmt Num Fonts State Style TextSpec.
Open Scope nat_scope.

Section Generic.
Context {NUM : Num}.

Definition simple (c : command) : bool := match c with Chain _ => false | _ => true end.

Lemma apply_all_app l1 l2 s : apply_all (l1 ++ l2) s = apply_all l2 (apply_all l1 s).
Proof. apply fold_left_app. Qed.
Lemma apply_all_cons c l s : apply_all (c :: l) s = apply_all l (apply c s).
Proof. reflexivity. Qed.

Lemma apply_commute a b s : simple a = true -> simple b = true -> ctag a <> ctag b ->
  apply a (apply b s) = apply b (apply a s).
Proof. destruct a, b; cbn; intros; congruence. Qed.
Lemma apply_override a b s : simple a = true -> ctag a = ctag b -> simple b = true ->
  apply a (apply b s) = apply a s.
Proof. destruct a, b; cbn; intros; congruence. Qed.

Lemma apply_all_commute d c s :
  forallb simple d = true -> simple c = true -> ~ In (ctag c) (map ctag d) ->
  apply_all d (apply c s) = apply c (apply_all d s).
Proof.
  revert s; induction d as [|x d IH]; cbn [forallb map In]; intros s Hd Hc Hn; auto.
  apply andb_prop in Hd as [Hx Hd]. rewrite !apply_all_cons.
  rewrite apply_commute; auto.
Qed.

Lemma dict_set_tags d c :
  map ctag (dict_set d c) = if existsb (Nat.eqb (ctag c)) (map ctag d)
                            then map ctag d else map ctag d ++ [ctag c].
Proof.
  induction d as [|x d IH]; cbn; auto.
  rewrite (Nat.eqb_sym (ctag c)).
  destruct (Nat.eqb_spec (ctag x) (ctag c)) as [E|E]; cbn.
  - congruence.
  - rewrite IH. destruct (existsb _ _); reflexivity.
Qed.
Lemma dict_set_nodup d c : NoDup (map ctag d) -> NoDup (map ctag (dict_set d c)).
Proof.
  intros H. rewrite dict_set_tags. destruct (existsb _ _) eqn:E; auto.
  apply (Permutation.Permutation_NoDup (l := ctag c :: map ctag d)).
  { apply Permutation.Permutation_cons_append. }
  constructor; auto.
  intros Hin. apply not_true_iff_false in E. apply E. apply existsb_exists.
  exists (ctag c). rewrite Nat.eqb_refl. auto.
Qed.
Lemma dict_set_simple d c :
  forallb simple d = true -> simple c = true -> forallb simple (dict_set d c) = true.
Proof.
  induction d as [|x d IH]; cbn; intros Hd Hc; [rewrite Hc; auto|].
  apply andb_prop in Hd as [Hx Hd].
  destruct (_ =? _); cbn; [rewrite Hc, Hd | rewrite Hx, IH]; auto.
Qed.
Lemma dict_set_apply d c s :
  NoDup (map ctag d) -> forallb simple d = true -> simple c = true ->
  apply_all (dict_set d c) s = apply c (apply_all d s).
Proof.
  revert s; induction d as [|x d IH]; cbn [map forallb dict_set]; intros s Hn Hd Hc; auto.
  apply andb_prop in Hd as [Hx Hd]. inversion_clear Hn as [|? ? Hni Hn'].
  destruct (Nat.eqb_spec (ctag x) (ctag c)) as [E|E].
  - rewrite !apply_all_cons. rewrite <- apply_all_commute by (auto; congruence).
    rewrite apply_override; auto.
  - rewrite !apply_all_cons. apply IH; auto.
Qed.
Lemma fold_dict_set l d s :
  NoDup (map ctag d) -> forallb simple d = true -> forallb simple l = true ->
  apply_all (fold_left dict_set l d) s = apply_all l (apply_all d s).
Proof.
  revert d; induction l as [|c l IH]; cbn [forallb fold_left]; intros d Hn Hd Hl; auto.
  apply andb_prop in Hl as [Hc Hl].
  rewrite IH; auto using dict_set_nodup, dict_set_simple.
  rewrite dict_set_apply; auto.
Qed.

(** C21 positive *)
Lemma squash_simple l s : forallb simple l = true -> apply (squash l) s = apply_all l s.
Proof.
  intros H. unfold squash. change (apply_all l s) with (apply_all l (apply_all [] s)).
  rewrite <- (fold_dict_set l [] s) by (auto; constructor).
  destruct (fold_left dict_set l []) as [|a [|b d]]; reflexivity.
Qed.
Lemma squash_single c : squash [c] = c.
Proof. reflexivity. Qed.
Lemma squash_nil : squash (@nil command) = NoOp.
Proof. reflexivity. Qed.

(** ** C20 *)
Hypothesis neqb_eq : forall a b : num, neqb a b = true -> a = b.

Lemma rgb_eqb_eq a b : rgb_eqb a b = true -> a = b.
Proof.
  unfold rgb_eqb. rewrite !andb_true_iff. intros [[H1 H2] H3].
  apply neqb_eq in H1, H2, H3. destruct a, b; cbn in *; congruence.
Qed.

Lemma style_diff_simple st base : forallb simple (style_diff st base) = true.
Proof.
  unfold style_diff. rewrite !forallb_app, !andb_true_iff. repeat split.
  - destruct (_ || _); reflexivity.
  - destruct (s_color st); [destruct (rgb_eqb _ _)|]; reflexivity.
  - destruct (s_spacing st); [destruct (neqb _ _)|]; reflexivity.
  - destruct (s_hyphens st); [destruct (_ =? _)%N|]; reflexivity.
Qed.
Lemma full_diff_simple a b : forallb simple (full_diff a b) = true.
Proof.
  unfold full_diff. rewrite !forallb_app, !andb_true_iff. repeat split.
  - destruct (negb _); reflexivity.
  - destruct (rgb_eqb _ _); reflexivity.
  - destruct (neqb _ _); reflexivity.
  - destruct (_ =? _)%N; reflexivity.
Qed.

Lemma differs_false {A} (eqb : A -> A -> bool) a b :
  (forall x y, eqb x y = true -> x = y) -> differs eqb a b = false -> fallback a b = b.
Proof.
  intros He H. destruct a as [x|]; cbn in *; auto.
  apply negb_false_iff in H. auto.
Qed.

Lemma bool_eqb_eq x y : Bool.eqb x y = true -> x = y.
Proof. apply Bool.eqb_prop. Qed.

Lemma style_diff_apply st base :
  apply_all (style_diff st base) (as_state base) = as_state (full_or base st).
Proof.
  unfold style_diff. rewrite !apply_all_app.
  set (b := _ || _ || _ || _).
  assert (H1 : apply_all (if b then [SetFont (mkFont (fallback (s_font st) (fs_font base))
                         (fallback (s_bold st) (fs_bold base))
                         (fallback (s_italic st) (fs_italic base)))
                 (fallback (s_size st) (fs_size base))] else []) (as_state base)
          = mkState (mkFont (fallback (s_font st) (fs_font base))
                         (fallback (s_bold st) (fs_bold base))
                         (fallback (s_italic st) (fs_italic base)))
                 (fallback (s_size st) (fs_size base)) (fs_color base) (fs_spacing base) (fs_hyphens base)).
  { destruct b eqn:E; cbn; auto. unfold b in E.
    rewrite !orb_false_iff in E. destruct E as [[[Eb Ei] Ef] Es].
    apply differs_false in Eb; [|apply bool_eqb_eq]. apply differs_false in Ei; [|apply bool_eqb_eq].
    apply differs_false in Ef; [|apply typeface_eqb_eq]. apply differs_false in Es; [|apply neqb_eq].
    rewrite Eb, Ei, Ef, Es. reflexivity. }
  rewrite H1. clear H1 b. unfold as_state, full_or; cbn [fs_font fs_size fs_bold fs_italic fs_color fs_spacing fs_hyphens].
  destruct (s_color st) as [c|]; cbn [fallback];
    [destruct (rgb_eqb c (fs_color base)) eqn:Ec; [apply rgb_eqb_eq in Ec; rewrite Ec|]|];
  (destruct (s_spacing st) as [v|]; cbn [fallback];
    [destruct (neqb v (fs_spacing base)) eqn:Ev; [apply neqb_eq in Ev; rewrite Ev|]|]);
  (destruct (s_hyphens st) as [h|]; cbn [fallback];
    [destruct (h =? fs_hyphens base)%N eqn:Eh; [apply N.eqb_eq in Eh; rewrite Eh|]|]);
  reflexivity.
Qed.

Lemma full_diff_apply a b : apply_all (full_diff a b) (as_state b) = as_state a.
Proof.
  unfold full_diff. rewrite !apply_all_app.
  set (q := negb _).
  assert (H1 : apply_all (if q then [SetFont (mkFont (fs_font a) (fs_bold a) (fs_italic a)) (fs_size a)] else [])
                 (as_state b)
     = mkState (mkFont (fs_font a) (fs_bold a) (fs_italic a)) (fs_size a) (fs_color b) (fs_spacing b) (fs_hyphens b)).
  { destruct q eqn:E; cbn; auto. unfold q in E. apply negb_false_iff in E.
    rewrite !andb_true_iff in E. destruct E as [[[Eb Ei] Ef] Es].
    apply Bool.eqb_prop in Eb, Ei. apply typeface_eqb_eq in Ef. apply neqb_eq in Es.
    unfold as_state. rewrite Eb, Ei, Ef, Es. reflexivity. }
  rewrite H1. clear H1 q. unfold as_state.
  destruct (rgb_eqb (fs_color a) (fs_color b)) eqn:Ec; [apply rgb_eqb_eq in Ec; rewrite <- Ec|];
  (destruct (neqb (fs_spacing a) (fs_spacing b)) eqn:Ev; [apply neqb_eq in Ev; rewrite <- Ev|]);
  (destruct (fs_hyphens a =? fs_hyphens b)%N eqn:Eh; [apply N.eqb_eq in Eh; rewrite <- Eh|]);
  reflexivity.
Qed.

Fixpoint item_ind' (P : item -> Prop) (Hs : forall s, P (IStr s))
  (Hp : forall st c, Forall P c -> P (ISpan st c)) (i : item) : P i :=
  match i with
  | IStr s => Hs s
  | ISpan st c => Hp st c ((fix go l : Forall P l :=
      match l with [] => Forall_nil _ | x :: r => Forall_cons _ (item_ind' P Hs Hp x) (go r) end) c)
  end.

Lemma flatten_item_span base st c todo :
  flatten_item base (ISpan st c) todo =
  let '(ps, t) := flatten_items (full_or base st) c (todo ++ style_diff st base) in
  (ps, t ++ full_diff base (full_or base st)).
Proof.
  cbn [flatten_item].
  match goal with |- context [?go c (todo ++ _)] =>
    assert (E : forall l t, go l t = flatten_items (full_or base st) l t) end.
  { induction l as [|i l IH]; intros t; cbn [flatten_items]; auto.
    destruct (flatten_item _ i t) as [p1 t1]. rewrite IH. reflexivity. }
  rewrite E. reflexivity.
Qed.

(** Running raw passages: each string with the state reached. *)
Fixpoint run_raw (ps : list raw) (s : state) : list (str * state) :=
  match ps with
  | [] => []
  | (l, t) :: r => let s' := apply_all l s in (t, s') :: run_raw r s'
  end.
Fixpoint end_raw (ps : list raw) (s : state) : state :=
  match ps with [] => s | (l, _) :: r => end_raw r (apply_all l s) end.
Lemma run_raw_app a b s : run_raw (a ++ b) s = run_raw a s ++ run_raw b (end_raw a s).
Proof. revert s; induction a as [|[l t] a IH]; intros s; cbn; auto. rewrite IH. reflexivity. Qed.
Lemma end_raw_app a b s : end_raw (a ++ b) s = end_raw b (end_raw a s).
Proof. revert s; induction a as [|[l t] a IH]; intros s; cbn; auto. Qed.

Definition flat_ok (base : full) (todo : list command) (out : list raw * list command)
  (spec : list (str * full)) : Prop :=
  forall s, forallb simple todo = true -> apply_all todo s = as_state base ->
    run_raw (fst out) s = strings_at spec /\
    apply_all (snd out) (end_raw (fst out) s) = as_state base /\
    forallb simple (snd out) = true /\
    forallb (fun p => forallb simple (fst p)) (fst out) = true.

Lemma flatten_items_ok c : forall base todo,
  Forall (fun i => forall base todo, flat_ok base todo (flatten_item base i todo) (span_strings base i)) c ->
  flat_ok base todo (flatten_items base c todo) (flat_map (span_strings base) c).
Proof.
  induction c as [|i c IH]; intros base todo HF s Hsi Hap; cbn [flatten_items flat_map].
  - cbn. auto.
  - inversion_clear HF as [|? ? Hi Hc].
    destruct (flatten_item base i todo) as [p1 t1] eqn:E1.
    destruct (flatten_items base c t1) as [p2 t2] eqn:E2. cbn [fst snd].
    specialize (Hi base todo s Hsi Hap). rewrite E1 in Hi. cbn [fst snd] in Hi.
    destruct Hi as (R1 & A1 & S1 & F1).
    specialize (IH base t1 Hc (end_raw p1 s) S1 A1). rewrite E2 in IH. cbn [fst snd] in IH.
    destruct IH as (R2 & A2 & S2 & F2).
    rewrite run_raw_app, end_raw_app, R1, R2.
    unfold strings_at. rewrite map_app. split; [|split; [|split]]; auto.
    apply forallb_forall. intros x Hx. apply in_app_or in Hx.
    destruct Hx as [Hx|Hx]; [eapply forallb_forall in F1|eapply forallb_forall in F2]; eauto.
Qed.

Lemma flatten_item_ok i : forall base todo,
  flat_ok base todo (flatten_item base i todo) (span_strings base i).
Proof.
  induction i as [t|st c IH] using item_ind'; intros base todo s Hsi Hap.
  - cbn. rewrite Hap, Hsi. auto.
  - rewrite flatten_item_span. cbn [span_strings].
    pose proof (flatten_items_ok c (full_or base st) (todo ++ style_diff st base) IH s) as H.
    destruct (flatten_items _ _ _) as [ps t]. cbn [fst snd] in *.
    destruct H as (R & A & S & F).
    { rewrite forallb_app, Hsi, style_diff_simple. reflexivity. }
    { rewrite apply_all_app, Hap. apply style_diff_apply. }
    repeat split; auto.
    + rewrite apply_all_app, A. apply full_diff_apply.
    + rewrite forallb_app, S, full_diff_simple. reflexivity.
Qed.

Lemma run_passages_raw ps s :
  forallb (fun p => forallb simple (fst p)) ps = true ->
  run_passages (passages_of ps) s = run_raw ps s.
Proof.
  revert s; induction ps as [|[l t] ps IH]; intros s; cbn; auto.
  rewrite andb_true_iff. intros [H1 H2]. rewrite squash_simple by auto. rewrite IH; auto.
Qed.
Lemma end_passages_raw ps s :
  forallb (fun p => forallb simple (fst p)) ps = true ->
  end_state (passages_of ps) s = end_raw ps s.
Proof.
  unfold end_state. revert s; induction ps as [|[l t] ps IH]; intros s; cbn; auto.
  rewrite andb_true_iff. intros [H1 H2]. rewrite squash_simple by auto. apply IH; auto.
Qed.

Lemma flatten_raw_simple base st content :
  forallb (fun p => forallb simple (fst p)) (flatten_raw base st content) = true.
Proof.
  destruct (flatten_item_ok (ISpan st content) base [] (as_state base) eq_refl eq_refl)
    as (_ & _ & _ & F). exact F.
Qed.
Lemma flatten_styles base st content :
  run_passages (flatten base st content) (as_state base) =
  strings_at (span_strings base (ISpan st content)).
Proof.
  unfold flatten. rewrite run_passages_raw by apply flatten_raw_simple.
  destruct (flatten_item_ok (ISpan st content) base [] (as_state base) eq_refl eq_refl)
    as (R & _). exact R.
Qed.
(** What the next sibling of a span sees: the pending commands bring the state
    back to the enclosing style. *)
Lemma flatten_returns base st content :
  let '(ps, todo) := flatten_item base (ISpan st content) [] in
  apply_all todo (end_state (passages_of ps) (as_state base)) = as_state base.
Proof.
  pose proof (flatten_item_ok (ISpan st content) base [] (as_state base) eq_refl eq_refl) as H.
  destruct (flatten_item _ _ _) as [ps todo]. cbn [fst snd] in H. destruct H as (_ & A & _ & F).
  rewrite end_passages_raw; auto.
Qed.
End Generic.

(** ** C22 *)
Section Lines.
Context {NUM : Num}.

Lemma end_state_cons c t r (s : state) : end_state ((c, t) :: r) s = end_state r (apply c s).
Proof. reflexivity. Qed.

Lemma cut_ne t (s : state) : cut t s <> [].
Proof.
  induction t as [|c r IH]; cbn; [discriminate|].
  destruct (_ =? _)%N; [discriminate|].
  destruct (_ && _); auto. destruct (cut r s); [discriminate|discriminate].
Qed.

Lemma split_newline_cut t (s : state) :
  match split_newline t with
  | None => cut t s = [styled_str t s]
  | Some (b, a) => cut t s = styled_str b s :: cut a s /\ (length a < length t)
  end.
Proof.
  induction t as [t IH] using (well_founded_induction (Wf_nat.well_founded_ltof _ (@length N))).
  unfold Wf_nat.ltof in IH.
  destruct t as [|c r]; [reflexivity|].
  cbn [split_newline cut].
  destruct (N.eqb_spec c 10) as [->|Hc]; [split; [reflexivity|cbn; lia]|].
  destruct r as [|d r'].
  - rewrite andb_false_r. reflexivity.
  - destruct (N.eqb_spec c 13) as [->|H13]; cbn [andb].
    + destruct (N.eqb_spec d 10) as [->|Hd].
      * cbn [cut]. rewrite N.eqb_refl. split; [reflexivity|cbn; lia].
      * specialize (IH (d :: r') ltac:(cbn; lia)).
        destruct (split_newline (d :: r')) as [[b a]|]; cbn [option_map fst snd].
        -- destruct IH as [-> Hl]. split; [reflexivity|cbn in *; lia].
        -- rewrite IH. reflexivity.
    + specialize (IH (d :: r') ltac:(cbn; lia)).
      destruct (split_newline (d :: r')) as [[b a]|]; cbn [option_map fst snd].
      * destruct IH as [-> Hl]. split; [reflexivity|cbn in *; lia].
      * rewrite IH. reflexivity.
Qed.

Lemma glue_cons {A} (x : list A) a b : a <> [] -> glue (x :: a) b = x :: glue a b.
Proof. destruct a; [congruence|]. reflexivity. Qed.
Lemma glue_ne {A} (a b : list (list A)) : b <> [] -> glue a b <> [].
Proof. destruct a as [|x [|y a]]; cbn; auto; destruct b; congruence. Qed.
Lemma spec_lines_ne ps (s : state) : spec_lines ps s <> [].
Proof. revert s; induction ps as [|[c t] r IH]; intros s; cbn; [discriminate|]. apply glue_ne, IH. Qed.

Lemma text_size_cons (c : command) t r : text_size ((c, t) :: r) = length t + text_size r.
Proof. reflexivity. Qed.

(** one group: the first line, and where the rest starts.  The state during a
    continued passage is that reached already. *)
Lemma group_spec fuel : forall cmd txt (cont : bool) it (s : state),
  length it < fuel ->
  let s1 := if cont then s else apply cmd s in
  let '(g, nxt) := group fuel cmd txt cont it in
  match nxt with
  | None => glue (cut txt s1) (spec_lines it s1) = [styled g s]
  | Some (cmd', txt', it') =>
      glue (cut txt s1) (spec_lines it s1) =
        styled g s :: glue (cut txt' (end_state g s)) (spec_lines it' (end_state g s))
      /\ length txt' + text_size it' < length txt + text_size it
  end.
Proof.
  induction fuel as [|fuel IH]; intros cmd txt cont it s Hl; [lia|].
  cbn [group]. pose proof (split_newline_cut txt (if cont then s else apply cmd s)) as Hc.
  assert (E1 : apply (if cont then NoOp else cmd) s = (if cont then s else apply cmd s))
    by (destruct cont; reflexivity).
  destruct (split_newline txt) as [[b a]|].
  - destruct Hc as [Hc Hlen]. cbn [styled]. rewrite end_state_cons, E1, app_nil_r. split; [|lia].
    rewrite Hc, glue_cons by apply cut_ne. reflexivity.
  - destruct it as [|[cmd' txt'] it'].
    + rewrite Hc. cbn [styled spec_lines glue]. rewrite E1. reflexivity.
    + specialize (IH cmd' txt' false it' (if cont then s else apply cmd s) ltac:(cbn in Hl; lia)).
      cbn zeta in IH.
      destruct (group fuel cmd' txt' false it') as [g nxt].
      rewrite Hc. cbn [spec_lines styled]. rewrite E1.
      destruct nxt as [[[c2 t2] i2]|].
      * destruct IH as [IH Hlt]. cbn [glue]. rewrite IH. rewrite end_state_cons, E1.
        split; auto. rewrite text_size_cons. lia.
      * cbn [glue]. rewrite IH. reflexivity.
Qed.

Lemma groups_spec fuel : forall cmd txt (cont : bool) it (s : state),
  length txt + text_size it < fuel ->
  let s1 := if cont then s else apply cmd s in
  styled_groups (groups fuel cmd txt cont it) s = glue (cut txt s1) (spec_lines it s1).
Proof.
  induction fuel as [|fuel IH]; intros cmd txt cont it s Hl; [lia|].
  cbn [groups]. cbn zeta.
  pose proof (group_spec (S (length it)) cmd txt cont it s ltac:(lia)) as G. cbn zeta in G.
  destruct (group (S (length it)) cmd txt cont it) as [g nxt]. cbn [styled_groups].
  destruct nxt as [[[c2 t2] i2]|].
  - destruct G as [G Hlt]. rewrite G. f_equal.
    rewrite (IH c2 t2 true i2 (end_state g s) ltac:(lia)). reflexivity.
  - rewrite G. reflexivity.
Qed.

Lemma splitlines_spec ps (s : state) : ps <> [] ->
  styled_groups (splitlines ps) s = spec_lines ps s.
Proof.
  destruct ps as [|[c t] r]; [congruence|]. intros _. unfold splitlines.
  apply (groups_spec (S (text_size ((c, t) :: r))) c t false r s).
  rewrite text_size_cons. lia.
Qed.

(** nothing but CR and LF is lost *)
Definition ncl (x : schar) : bool := negb ((fst x =? 10)%N || (fst x =? 13)%N).
Lemma cut_chars t (s : state) : filter ncl (concat (cut t s)) = filter ncl (styled_str t s).
Proof.
  induction t as [|c r IH]; [reflexivity|]. cbn [cut].
  destruct (N.eqb_spec c 10) as [->|Hc]; [exact IH|].
  destruct (_ && _) eqn:E.
  - apply andb_prop in E as [E _]. apply N.eqb_eq in E. subst c. exact IH.
  - destruct (cut r s) as [|l ls] eqn:Er; [apply cut_ne in Er; contradiction|].
    cbn [concat app filter styled_str map] in *. rewrite IH. reflexivity.
Qed.
Lemma concat_glue {A} (a b : list (list A)) : concat (glue a b) = concat a ++ concat b.
Proof.
  induction a as [|x a IH]; [reflexivity|]. destruct a as [|y a].
  - destruct b; cbn; rewrite ?app_nil_r, ?app_assoc; auto.
  - rewrite glue_cons by discriminate. cbn [concat]. rewrite IH. cbn [concat]. rewrite app_assoc. reflexivity.
Qed.
Lemma spec_lines_chars ps (s : state) : filter ncl (concat (spec_lines ps s)) = filter ncl (styled ps s).
Proof.
  revert s; induction ps as [|[c t] r IH]; intros s; cbn [spec_lines styled]; [reflexivity|].
  rewrite concat_glue, !filter_app, cut_chars, IH. reflexivity.
Qed.
Lemma splitlines_chars ps (s : state) :
  filter ncl (concat (styled_groups (splitlines ps) s)) = filter ncl (styled ps s).
Proof.
  destruct ps as [|p r]; [reflexivity|]. rewrite splitlines_spec by discriminate. apply spec_lines_chars.
Qed.

(** no line contains a newline *)
Lemma cut_no_nl t (s : state) : Forall (Forall (fun x => fst x <> 10%N)) (cut t s).
Proof.
  induction t as [|c r IH]; cbn; [repeat constructor|].
  destruct (N.eqb_spec c 10) as [->|Hc]; [constructor; auto|].
  destruct (_ && _); auto.
  destruct (cut r s) as [|l ls]; [repeat constructor; auto|].
  inversion_clear IH. repeat constructor; auto.
Qed.
Lemma glue_forall {A} (P : list A -> Prop) a b :
  (forall x y, P x -> P y -> P (x ++ y)) -> Forall P a -> Forall P b -> Forall P (glue a b).
Proof.
  intros Hp Ha Hb. induction a as [|x a IH]; cbn; auto.
  inversion_clear Ha as [|? ? Hx Ha']. destruct a as [|y a].
  - destruct b as [|m b]; auto. inversion_clear Hb. constructor; auto.
  - constructor; auto.
Qed.
Lemma spec_lines_no_nl ps (s : state) : Forall (Forall (fun x => fst x <> 10%N)) (spec_lines ps s).
Proof.
  revert s; induction ps as [|[c t] r IH]; intros s; cbn; [repeat constructor|].
  apply glue_forall; auto using cut_no_nl. intros; apply Forall_app; auto.
Qed.
Lemma styled_text ps (s : state) : map fst (styled ps s) = text_of ps.
Proof.
  revert s; induction ps as [|[c t] r IH]; intros s; cbn; auto.
  rewrite map_app, IH. f_equal. unfold styled_str. rewrite map_map. apply map_id.
Qed.

(** the groups are made of pieces without newline *)
Lemma split_newline_none t : split_newline t = None -> ~ In 10%N t.
Proof.
  induction t as [t IH] using (well_founded_induction (Wf_nat.well_founded_ltof _ (@length N))).
  unfold Wf_nat.ltof in IH. destruct t as [|c r]; cbn [split_newline]; [auto|].
  destruct (N.eqb_spec c 10) as [->|Hc]; [discriminate|].
  destruct r as [|d r']; [intros _ [E|[]]; auto|].
  destruct (_ && _); [discriminate|].
  specialize (IH (d :: r') ltac:(cbn; lia)). destruct (split_newline (d :: r')); [discriminate|].
  intros _ [E|E]; auto. apply IH; auto.
Qed.
Lemma split_newline_before t b a : split_newline t = Some (b, a) -> ~ In 10%N b.
Proof.
  revert b a. induction t as [t IH] using (well_founded_induction (Wf_nat.well_founded_ltof _ (@length N))).
  unfold Wf_nat.ltof in IH. intros b a. destruct t as [|c r]; cbn [split_newline]; [discriminate|].
  destruct (N.eqb_spec c 10) as [->|Hc]; [intros E; injection E as <- <-; auto|].
  destruct r as [|d r']; [discriminate|].
  destruct (_ && _); [intros E; injection E as <- <-; auto|].
  specialize (IH (d :: r') ltac:(cbn; lia)). destruct (split_newline (d :: r')) as [[b' a']|]; [|discriminate].
  cbn. intros E; injection E as <- <-. specialize (IH b' a' eq_refl). intros [E|E]; auto.
Qed.
Definition no_nl (p : passage) : Prop := ~ In 10%N (snd p).
Lemma group_no_nl fuel : forall cmd txt cont it,
  Forall no_nl (fst (group fuel cmd txt cont it)).
Proof.
  induction fuel as [|fuel IH]; intros cmd txt cont it; cbn [group]; [constructor|].
  destruct (split_newline txt) as [[b a]|] eqn:E.
  - apply split_newline_before in E. repeat constructor; auto.
  - apply split_newline_none in E. destruct it as [|[c' t'] it']; [repeat constructor; auto|].
    specialize (IH c' t' false it'). destruct (group fuel c' t' false it') as [g n].
    constructor; auto.
Qed.
Lemma groups_no_nl fuel : forall cmd txt cont it,
  Forall (Forall no_nl) (groups fuel cmd txt cont it).
Proof.
  induction fuel as [|fuel IH]; intros cmd txt cont it; cbn [groups]; [constructor|].
  pose proof (group_no_nl (S (length it)) cmd txt cont it) as G.
  destruct (group _ cmd txt cont it) as [g [[[c2 t2] i2]|]]; constructor; auto.
Qed.
Lemma splitlines_no_nl ps : Forall (Forall no_nl) (splitlines ps).
Proof. destruct ps as [|[c t] r]; [constructor|]. apply groups_no_nl. Qed.

(** ** C23 *)
Fixpoint text_leads (ps : list passage) (s : state) : list num :=
  match ps with
  | [] => []
  | (c, t) :: r => let s' := apply c s in
      match t with [] => text_leads r s' | _ => lead s' :: text_leads r s' end
  end.
Lemma max_lead_from_eq ps (s : state) acc :
  max_lead_from ps s acc = (fold_left nmax (text_leads ps s) acc, end_state ps s).
Proof.
  revert s acc; induction ps as [|[c t] r IH]; intros s acc; cbn; auto.
  rewrite IH. destruct t; reflexivity.
Qed.
End Lines.

Lemma fold_nmax_ge (l : list Qc) (a : Qc) :
  (a <= fold_left (@nmax QcNum) l a)%Qc /\ Forall (fun x => x <= fold_left (@nmax QcNum) l a)%Qc l.
Proof.
  revert a; induction l as [|x l IH]; intros a; cbn [fold_left].
  - split; [apply Qcle_refl|constructor].
  - destruct (IH (@nmax QcNum a x)) as [H1 H2].
    assert (Hm : (a <= @nmax QcNum a x)%Qc /\ (x <= @nmax QcNum a x)%Qc).
    { unfold nmax. destruct (@nltb QcNum a x) eqn:E; split; qc. }
    destruct Hm as [Ha Hx]. split; [eapply Qcle_trans; eauto|].
    constructor; auto. eapply Qcle_trans; eauto.
Qed.
Lemma fold_nmax_in (l : list Qc) (a : Qc) :
  fold_left (@nmax QcNum) l a = a \/ In (fold_left (@nmax QcNum) l a) l.
Proof.
  revert a; induction l as [|x l IH]; intros a; cbn [fold_left]; auto.
  destruct (IH (@nmax QcNum a x)) as [H|H]; [|right; right; auto].
  rewrite H. unfold nmax. destruct (@nltb QcNum a x); auto. right; left; auto.
Qed.

Lemma text_leads_chars {NUM : Num} ps (s : state) l :
  In l (text_leads ps s) <-> In l (map (fun x => lead (snd x)) (styled ps s)).
Proof.
  revert s; induction ps as [|[c t] r IH]; intros s; cbn [text_leads styled]; [reflexivity|].
  rewrite map_app, in_app_iff, <- IH. destruct t as [|x t].
  - cbn. tauto.
  - cbn [In]. unfold styled_str. rewrite map_map. cbn [snd map In].
    split; intros [H|H]; auto. destruct H as [H|H]; auto.
    apply in_map_iff in H. destruct H as (y & H & _). auto.
Qed.
Lemma text_leads_nil {NUM : Num} ps (s : state) : text_of ps = [] -> text_leads ps s = [].
Proof.
  revert s; induction ps as [|[c t] r IH]; intros s; cbn; auto.
  intros H. apply app_eq_nil in H as [-> H]. apply IH, H.
Qed.
Lemma max_lead_spec ps (s : @state QcNum) :
  let leads : list Qc := map (fun x => lead (snd x)) (styled ps s) in
  (exists l, In l leads /\ (0 < l)%Qc) ->
  In (max_lead ps s : Qc) leads /\ Forall (fun l => l <= max_lead ps s)%Qc leads.
Proof.
  intros leads [l [Hl Hp]]. unfold max_lead. rewrite max_lead_from_eq.
  set (m := fold_left nmax (text_leads ps s) n0).
  pose proof (fold_nmax_ge (text_leads ps s) (@n0 QcNum)) as [H0 Hge].
  pose proof (fold_nmax_in (text_leads ps s) (@n0 QcNum)) as Hin. fold m in H0, Hge, Hin.
  rewrite Forall_forall in Hge.
  assert (Hm : (0 < m)%Qc).
  { eapply Qclt_le_trans; [exact Hp|]. apply Hge. apply (proj2 (@text_leads_chars QcNum ps s l)), Hl. }
  assert (Ht : ntruthy m = true).
  { unfold ntruthy. apply negb_true_iff. apply Qceqb_neq. intros C. rewrite C in Hm.
    apply (Qclt_not_le _ _ Hm). apply Qcle_refl. }
  rewrite Ht. split.
  - apply (proj1 (@text_leads_chars QcNum ps s m)). destruct Hin as [Hin|Hin]; auto.
    exfalso. rewrite Hin in Hm. apply (Qclt_not_le _ _ Hm). apply Qcle_refl.
  - apply Forall_forall. intros x Hx. apply Hge, (proj2 (@text_leads_chars QcNum ps s x)), Hx.
Qed.
