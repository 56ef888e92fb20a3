(** * Properties C77: the kerning of an embedded font. *)
From Coq Require Import QArith Qcanon.
From Verif Require Import Base Gpos GposSpec GposProofs GposKern Num.
Open Scope nat_scope.

(** No well-formed table makes loading the font fail. *)
Theorem C77_total : forall cmap g, wf_gpos g -> exists kp, for_font cmap (Some g) = Ok kp.
Proof.
  intros cmap g W. destruct (kerning_pairs_get g W) as (m & E & _). unfold for_font. rewrite E. cbn [bind]. eauto.
Qed.
Print Assumptions C77_total.

(** For characters whose glyph serves no other character, and pairs that the font deals
    with once: the kerning used for layout is that of OpenType, in thousandths of the
    font size. *)
Theorem C77_kerning_partial : forall (scale : Qc) (cmap : list (N * N)) (g : gpos) (c d a b : N),
  wf_gpos g -> usual_gpos g ->
  NoDup (map fst cmap) ->
  In (c, a) cmap -> (forall c', In (c', a) cmap -> c' = c) ->
  In (d, b) cmap -> (forall d', In (d', b) cmap -> d' = d) ->
  dealt_with_once g a b ->
  exists kp, for_font cmap (Some g) = Ok kp /\
  embed_charkern (embed_kerning (NUM := QcNum) scale kp) c d = Ok (scale * Q2Qc (inject_Z (ot_kern g a b)))%Qc.
Proof.
  intros scale cmap g c d a b W U NC IA UA IB UB ONCE.
  destruct (kerning_pairs_get g W) as (m & E & H). unfold for_font. rewrite E. cbn [bind]. eexists. split; [reflexivity|].
  assert (INJ : forall x y z, dget N.eqb (glyph_chars cmap) x = Some z -> dget N.eqb (glyph_chars cmap) y = Some z -> x = y).
  { intros x y z X Y. apply glyph_chars_sound in X, Y. clear -NC X Y. induction cmap as [|[k v] cmap IH]; [contradiction|].
    inversion_clear NC as [|? ? N0 NC0]. cbn in N0. destruct X as [X|X], Y as [Y|Y].
    - congruence.
    - exfalso. apply N0. injection X as -> ->. apply in_map_iff. exists (z, y). auto.
    - exfalso. apply N0. injection Y as -> ->. apply in_map_iff. exists (z, x). auto.
    - auto. }
  pose proof (chars_get (glyph_chars cmap) m a b c d (kerning_pairs_keys _ _ E) INJ
    (glyph_chars_only cmap a c IA UA) (glyph_chars_only cmap b d IB UB)) as G.
  set (kp := fold_left _ m []) in *. rewrite H in G.
  pose proof (once_kern g a b U ONCE) as K. rewrite <- G in K. unfold embed_charkern, embed_kerning.
  destruct kp as [|e kp0] eqn:EK.
  - cbn in K. injection K as <-. change (nZ 0) with (Q2Qc 0). f_equal. change (Q2Qc (inject_Z 0)) with (Q2Qc 0).
    symmetry. apply Qcmult_0_r.
  - destruct (dget pair_eqb (e :: kp0) (c, d)) as [[z|x y]|]; cbn in K; try discriminate; injection K as <-; reflexivity.
Qed.
Print Assumptions C77_kerning_partial.

(** Characters the font does not have are not kerned. *)
Theorem C77_missing : forall (scale : Qc) cmap g kp c d,
  for_font cmap g = Ok kp -> ~ In c (map fst cmap) \/ ~ In d (map fst cmap) ->
  embed_charkern (embed_kerning (NUM := QcNum) scale kp) c d = Ok 0%Qc.
Proof.
  intros scale cmap g kp c d E NI. unfold for_font in E. apply bind_ok in E as (m & _ & E). apply Ok_inj in E.
  assert (G : dget pair_eqb kp (c, d) = None).
  { subst kp. set (D := glyph_chars cmap).
    assert (X : forall (m : pairs) (acc : pairs), dget pair_eqb acc (c, d) = None ->
      dget pair_eqb (fold_left (fun acc e =>
        match dget N.eqb D (fst (fst e)), dget N.eqb D (snd (fst e)) with
        | Some a, Some b => dset pair_eqb acc (a, b) (snd e)
        | _, _ => acc
        end) m acc) (c, d) = None).
    { induction m0 as [|[[x y] v] m0 IH]; intros acc A; cbn [fold_left]; [exact A|]. apply IH. cbn [fst snd].
      destruct (dget N.eqb D x) as [x'|] eqn:DX; [|exact A]. destruct (dget N.eqb D y) as [y'|] eqn:DY; [|exact A].
      rewrite dget_dset by exact pair_eqb_spec. destruct (pair_eqb_spec (c, d) (x', y')) as [EE|]; [|exact A].
      injection EE as -> ->. apply glyph_chars_sound in DX, DY. exfalso.
      destruct NI as [NI|NI]; apply NI; apply in_map_iff; [exists (x', x)|exists (y', y)]; auto. }
    apply X. reflexivity. }
  destruct kp as [|e kp0]; [reflexivity|]. unfold embed_charkern, embed_kerning. rewrite G. cbn [scaled]. f_equal.
  change (scale * Q2Qc 0 = 0)%Qc. apply Qcmult_0_r.
Qed.
Print Assumptions C77_missing.

(** ** Examples *)
(** glyphs: 1 A, 2 V, 3 W, 4 a, 5 e, 6 space.  One lookup: "A V" listed with -80, then
    classes {A} {V, W} against {a, e}: -40 for V or W before a or e; a second lookup
    (in an extension) for other letters. *)
Definition ex_classes : pairpos :=
  PP2 [1; 2; 3]%N 4 [(2%N, 1); (3%N, 1)] [(4%N, 1); (5%N, 1); (1%N, 2)]
    [[mkV 0 0; mkV 0 0; mkV 0 0]; [mkV 0 0; mkV 0 (-40); mkV 0 (-75)]].
Definition ex_gpos : gpos :=
  mkGpos [(false, [2]); (true, [1; 0]); (true, [1])]
    [ mkLookup 2 [SPair (PP1 [1%N] 4 [[(2%N, mkV 0 (-80)); (3%N, mkV 0 (-60))]]); SPair ex_classes];
      mkLookup 9 [SExt 2 (PP1 [6%N] 4 [[(1%N, mkV 0 (-55))]])];
      mkLookup 4 [] ].
Definition ex_cmap : list (N * N) := [(65, 1); (86, 2); (87, 3); (97, 4); (101, 5); (32, 6)]%N.
Fixpoint nodupb (l : list N) : bool := match l with [] => true | x :: r => (negb (mem x r) && nodupb r)%bool end.
Lemma nodupb_ok l : nodupb l = true -> NoDup l.
Proof.
  induction l as [|x l IH]; cbn; intros H; [constructor|]. apply andb_prop in H as [H1 H2]. constructor; [|auto].
  intro X. apply mem_in in X. rewrite X in H1. discriminate.
Qed.
Lemma ex_wf : wf_gpos ex_gpos /\ usual_gpos ex_gpos.
Proof.
  split.
  - split; [|repeat constructor].
    constructor; [|constructor; [|constructor; [|constructor]]]; intros T; [| |discriminate T]; cbn.
    + constructor; [|constructor; [|constructor]]; cbn.
      * split; [apply nodupb_ok; reflexivity|]. split; [reflexivity|]. constructor; [apply nodupb_ok; reflexivity|constructor].
      * split; [apply nodupb_ok; reflexivity|]. split; [apply nodupb_ok; reflexivity|]. split; [apply nodupb_ok; reflexivity|].
        repeat constructor.
    + constructor; [|constructor]. right. split; [reflexivity|].
      split; [apply nodupb_ok; reflexivity|]. split; [reflexivity|]. constructor; [apply nodupb_ok; reflexivity|constructor].
  - unfold usual_gpos. cbn. constructor; [|constructor; [|constructor]].
    + constructor; [split; [reflexivity|exact I]|constructor; [|constructor]]. split; [reflexivity|]. split; [|repeat constructor].
      intros g c H. cbn in *. destruct H as [H|[H|[]]]; injection H as <- _; auto.
    + constructor; [split; [reflexivity|exact I]|constructor].
Qed.
Example C77_example :
  wf_gpos ex_gpos /\ usual_gpos ex_gpos /\ NoDup (map fst ex_cmap) /\
  (forall a b, In a [1; 2; 3; 4; 5; 6]%N -> In b [1; 2; 3; 4; 5; 6]%N -> dealt_with_once ex_gpos a b) /\
  map (fun p => ot_kern ex_gpos (fst p) (snd p)) [(1, 2); (2, 1); (3, 5); (6, 1); (1, 4); (4, 1)]%N
  = [-80; -75; -40; -55; 0; 0]%Z.
Proof.
  destruct ex_wf as [A B]. split; [exact A|]. split; [exact B|]. split.
  - apply nodupb_ok. reflexivity.
  - split; [|vm_compute; reflexivity]. intros a b HA HB. cbn in HA, HB.
    repeat (destruct HA as [<-|HA]); try contradiction; repeat (destruct HB as [<-|HB]); try contradiction; exact I || reflexivity.
Qed.
Print Assumptions C77_example.

(** ** Where the code departs from OpenType *)
(** 1. Adjustments of two lookups add up in OpenType; the reader keeps the last. *)
Definition two_lookups : gpos :=
  mkGpos [(true, [0; 1])] [ mkLookup 2 [SPair (PP1 [1%N] 4 [[(2%N, mkV 0 (-80))]])];
                            mkLookup 2 [SPair (PP1 [1%N] 4 [[(2%N, mkV 0 (-15))]])] ].
(** 2. A glyph that serves two characters is kerned for the last of them only: here
    the space and the no-break space. *)
Definition shared_cmap : list (N * N) := [(32, 6); (65, 1); (160, 6)]%N.
(** 3. A pair with a right-to-left value has no number. *)
Definition rtl_gpos : gpos := mkGpos [(true, [0])] [mkLookup 2 [SPair (PP1 [1%N] 5 [[(2%N, mkV (-80) (-80))]])]].
Definition kern_with (cmap : list (N * N)) (g : gpos) (c d : N) : res Qc :=
  do kp <- for_font cmap (Some g); embed_charkern (embed_kerning (NUM := QcNum) 1%Qc kp) c d.
Theorem C77_kerning_refuted :
  (wf_gpos two_lookups /\ usual_gpos two_lookups /\ ot_kern two_lookups 1 2 = (-95)%Z /\
   kern_with ex_cmap two_lookups 65 86 = Ok (Q2Qc (-15))) /\
  (wf_gpos ex_gpos /\ usual_gpos ex_gpos /\ ot_kern ex_gpos 6 1 = (-55)%Z /\
   kern_with shared_cmap ex_gpos 160 65 = Ok (Q2Qc (-55)) /\ kern_with shared_cmap ex_gpos 32 65 = Ok (Q2Qc 0)) /\
  (wf_gpos rtl_gpos /\ ot_kern rtl_gpos 1 2 = (-80)%Z /\ kern_with ex_cmap rtl_gpos 65 86 = Err EType).
Proof.
  assert (OK : forall r x, match r with Ok y => Qc_eq_bool y x | Err _ => false end = true -> r = Ok x).
  { intros [y|e] x H; [|discriminate]. f_equal. apply Qc_eq_bool_correct. exact H. }
  split; [|split].
  - split; [|split; [|split]].
    + split; [|repeat constructor]; repeat (constructor; [intros _; constructor; [|constructor]; split; [apply nodupb_ok; reflexivity|split; [reflexivity|constructor; [apply nodupb_ok; reflexivity|constructor]]]|]); constructor.
    + unfold usual_gpos. cbn. repeat (constructor; [constructor; [split; [reflexivity|exact I]|constructor]|]). constructor.
    + reflexivity.
    + apply OK. vm_compute. reflexivity.
  - destruct ex_wf as [A B]. split; [exact A|]. split; [exact B|]. split; [reflexivity|].
    split; apply OK; vm_compute; reflexivity.
  - split; [|split; [reflexivity|vm_compute; reflexivity]].
    split; [|repeat constructor]; repeat (constructor; [intros _; constructor; [|constructor]; split; [apply nodupb_ok; reflexivity|split; [reflexivity|constructor; [apply nodupb_ok; reflexivity|constructor]]]|]); constructor.
Qed.
Print Assumptions C77_kerning_refuted.
