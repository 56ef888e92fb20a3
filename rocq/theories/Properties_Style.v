(** * Properties C19-C23: styles, spans, commands, lines, leading.
    Statements; proofs in StateProofs.  Specification: TextSpec. *)
From Coq Require Import QArith Qcanon.
From Verif Require Import Base Gfmt Num Fonts State Style TextSpec StateProofs.
Open Scope nat_scope.

(** C19. In [a | b] an attribute is b's if b sets it, else a's. *)
Definition over {A} (a b : option A) : option A :=
  match b with Some x => Some x | None => a end.
Theorem C19_style_or_fields : forall (NUM : Num) (a b : style),
  let c := style_or a b in
  s_font c = over (s_font a) (s_font b) /\ s_size c = over (s_size a) (s_size b) /\
  s_bold c = over (s_bold a) (s_bold b) /\ s_italic c = over (s_italic a) (s_italic b) /\
  s_color c = over (s_color a) (s_color b) /\ s_spacing c = over (s_spacing a) (s_spacing b) /\
  s_hyphens c = over (s_hyphens a) (s_hyphens b).
Proof. intros NUM a b. repeat split. Qed.
Print Assumptions C19_style_or_fields.

Theorem C19_style_monoid : forall (NUM : Num) (a b c : style),
  style_or style_empty a = a /\ style_or a style_empty = a /\
  style_or (style_or a b) c = style_or a (style_or b c).
Proof.
  intros NUM a b c. unfold style_or; cbn.
  destruct a as [a1 a2 a3 a4 a5 a6 a7], c as [c1 c2 c3 c4 c5 c6 c7]; cbn.
  split; [|split].
  - f_equal; match goal with |- ofallback ?x _ = _ => destruct x; reflexivity end.
  - reflexivity.
  - f_equal; match goal with |- ofallback ?x _ = _ => destruct x; reflexivity end.
Qed.
Print Assumptions C19_style_monoid.

(** Applying a, then b, to a full style is applying [a | b]; colours and
    typefaces used as styles behave as the style they stand for. *)
Theorem C19_style_action : forall (NUM : Num) (f : full) (a b : style) (l : stylelike),
  full_or f style_empty = f /\
  full_or (full_or f a) b = full_or f (style_or a b) /\
  style_or_like a l = style_or a (style_parse l).
Proof.
  intros NUM f a b l. split; [|split].
  - destruct f; reflexivity.
  - unfold full_or, style_or; cbn. destruct a, b; cbn.
    f_equal; match goal with |- fallback ?x _ = _ => destruct x; reflexivity end.
  - destruct a, l; unfold style_or; cbn; try reflexivity.
Qed.
Print Assumptions C19_style_action.

Section Ex.
Let red := @mkRGB QcNum 1%Qc 0%Qc 0%Qc.
Definition st_red : @style QcNum := @mkStyle QcNum None None None None (Some red) None None.
Definition st_big : @style QcNum := @mkStyle QcNum None (Some (Q2Qc 20)) (Some true) None None None None.
Definition st_tt : @style QcNum := @mkStyle QcNum (Some (TTrue 1%N 2%N 3%N 4%N)) (Some (Q2Qc 9)) None None None None None.
End Ex.
Example C19_example : style_or st_big st_tt <> style_or st_tt st_big.
Proof. intros C. apply (f_equal s_size) in C. apply (f_equal (fun o => match o with Some q => this q | None => 0%Q end)) in C. vm_compute in C. discriminate. Qed.

(** C20. Nested spans. *)
Theorem C20_nested_spans : forall (NUM : Num), exact_eq NUM ->
  forall (base : full) (st : style) (content : list item),
  run_passages (flatten base st content) (as_state base) =
  strings_at (span_strings base (ISpan st content)).
Proof. intros NUM He base st content. exact (flatten_styles He base st content). Qed.
Print Assumptions C20_nested_spans.
(** After a span, the pending commands lead back to the enclosing style. *)
Theorem C20_span_returns : forall (NUM : Num), exact_eq NUM ->
  forall (base : full) (st : style) (content : list item) ps todo,
  flatten_item base (ISpan st content) [] = (ps, todo) ->
  apply_all todo (end_state (passages_of ps) (as_state base)) = as_state base.
Proof.
  intros NUM He base st content ps todo E. pose proof (flatten_returns He base st content) as H.
  rewrite E in H. exact H.
Qed.
Print Assumptions C20_span_returns.
Example C20_example :
  let content := [IStr [97]%N; ISpan st_red [IStr [98]%N; ISpan st_tt [IStr [99]%N]; IStr [100]%N]; IStr [101]%N] in
  exact_eq QcNum /\
  map fst (span_strings full_default (ISpan st_big content)) = [[97]; [98]; [99]; [100]; [101]]%N /\
  map (fun p => this (st_size (snd p))) (run_passages (flatten full_default st_big content) (as_state full_default))
   = [20; 20; 9; 20; 20]%Q.
Proof. split; [exact QcNum_exact|]. split; vm_compute; reflexivity. Qed.

(** C21. Squashing, for commands that are not themselves chains ... *)
Theorem C21_squash_simple_partial : forall (NUM : Num) (l : list command) (s : state),
  (forall c, In c l -> match c with Chain _ => False | _ => True end) ->
  apply (squash l) s = apply_all l s.
Proof.
  intros NUM l s H. apply squash_simple. apply forallb_forall. intros c Hc.
  specialize (H c Hc). destruct c; auto; contradiction.
Qed.
Print Assumptions C21_squash_simple_partial.
Example C21_example : forall (NUM : Num) c f, 
  squash [SetHyphens 1%N; SetColor c; SetFont f n1; SetHyphens 2%N] = Chain [SetHyphens 2%N; SetColor c; SetFont f n1].
Proof. reflexivity. Qed.
(** ... and in particular for the commands styles produce. *)
Theorem C21_squash_style_diff : forall (NUM : Num) (st : style) (a b base : full) (s : state),
  apply (squash (style_diff st base ++ full_diff a b)) s = apply_all (style_diff st base ++ full_diff a b) s.
Proof.
  intros NUM st a b base s. apply squash_simple.
  rewrite forallb_app, style_diff_simple, full_diff_simple. reflexivity.
Qed.
Print Assumptions C21_squash_style_diff.
(** With chains among them it is false: the second chain replaces the first. *)
Theorem C21_squash_chains_refuted : exists (l : list (@command QcNum)) (s : state),
  apply (squash l) s <> apply_all l s.
Proof.
  exists [Chain [SetHyphens 1%N; SetLineSpacing n1]; Chain [SetLineSpacing n0; SetLineSpacing n1]], (as_state full_default).
  intros C. apply (f_equal st_hyphens) in C. vm_compute in C. discriminate.
Qed.
Print Assumptions C21_squash_chains_refuted.

(** C22. Lines. *)
Theorem C22_splitlines : forall (NUM : Num) (ps : list passage) (s : state), ps <> [] ->
  styled_groups (splitlines ps) s = spec_lines ps s /\
  Forall (Forall (fun p => ~ In 10%N (snd p))) (splitlines ps).
Proof. intros NUM ps s H. split; [apply splitlines_spec, H | apply splitlines_no_nl]. Qed.
Print Assumptions C22_splitlines.
(** Nothing but line ends disappears: characters other than CR and LF come out
    in order, each with its state. *)
Definition not_crlf {NUM : Num} (x : schar) : bool := negb ((fst x =? 10)%N || (fst x =? 13)%N).
Theorem C22_no_character_lost : forall (NUM : Num) (ps : list passage) (s : state),
  filter not_crlf (concat (styled_groups (splitlines ps) s)) = filter not_crlf (styled ps s).
Proof. intros NUM ps s. exact (splitlines_chars ps s). Qed.
Print Assumptions C22_no_character_lost.
Example C22_example : forall (NUM : Num) (c : command) (s : state),
  map (map fst) (styled_groups (splitlines [(NoOp, [97; 13; 10; 98; 13]%N); (c, [99; 10]%N); (NoOp, [100]%N)]) s)
  = [[97]; [98; 13; 99]; [100]]%N.
Proof. reflexivity. Qed.

(** C23. Leading. *)
Theorem C23_max_lead : forall (ps : list (@passage QcNum)) (s : state),
  let leads : list Qc := map (fun x => lead (snd x)) (styled ps s) in
  (exists l, In l leads /\ (0 < l)%Qc) ->
  In (max_lead ps s : Qc) leads /\ Forall (fun l => l <= max_lead ps s)%Qc leads.
Proof. exact max_lead_spec. Qed.
Print Assumptions C23_max_lead.
Theorem C23_max_lead_no_text : forall (ps : list (@passage QcNum)) (s : state),
  text_of ps = [] -> max_lead ps s = lead (end_state ps s).
Proof.
  intros ps s H. unfold max_lead. rewrite max_lead_from_eq, text_leads_nil by exact H. reflexivity.
Qed.
Print Assumptions C23_max_lead_no_text.
Example C23_example :
  this (max_lead (flatten full_default st_big [IStr [97]%N; ISpan st_tt [IStr [99]%N]]) (as_state full_default)) = 25%Q.
Proof. vm_compute. reflexivity. Qed.
