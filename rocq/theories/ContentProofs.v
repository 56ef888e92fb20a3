(** * ContentProofs: content streams are read back. *)
From Coq Require Import QArith Qabs Lqa String.
From Verif Require Import Base Gfmt GfmtProofs Atoms PdfSpec AtomsProofs ContentSpec.
From Verif Require Import Num Fonts State Words Render.
Local Open Scope list_scope.
Open Scope nat_scope.

Lemma near_g q : near (g_value q) q.
Proof.
  unfold near. destruct (Qeq_dec q 0) as [Z|NZ].
  - destruct q as [n d]. unfold Qeq in Z. cbn in Z. assert (n = 0)%Z by lia. subst. cbn. unfold Qle; cbn; lia.
  - destruct (g_value_err q NZ) as (e & H1 & _ & H3). eapply Qle_trans; [exact H3|].
    assert (E : (p10 (e - 5) == p10 e * (1 # 100000))%Q).
    { unfold Z.sub. rewrite p10_plus. apply Qmult_comp; [reflexivity|]. reflexivity. }
    rewrite E. assert (0 < p10 e)%Q by apply p10_pos. lra.
Qed.

(** [reads l ops out]: with pending operands [ops], the reader makes [out] of [l] *)
Definition reads (l : bytes) (st : list pobj) (out : list instr) : Prop :=
  forall n, length l < n -> read_instrs n l st = Some out.
Lemma reads_nil : reads [] [] [].
Proof. intros [|n] H; [cbn in H; lia|reflexivity]. Qed.
Lemma reads_ws c l st out : is_ws c = true -> reads l st out -> reads (c :: l) st out.
Proof.
  intros W H [|n] L; [cbn in L; lia|]. cbn in L. specialize (H (S n) ltac:(lia)).
  cbn [read_instrs] in *. rewrite skip_ws1 by exact W. exact H.
Qed.
Lemma skip_regular c l : is_regular c = true -> skip false (c :: l) = c :: l.
Proof. apply regular_skip. Qed.
Lemma regular_not_delim c : is_regular c = true -> is_delim c = false.
Proof. unfold is_regular. destruct (is_delim c), (is_ws c); cbn; congruence. Qed.

Lemma reads_num q : g_plain q = true -> exists v, (v == g_value q)%Q /\
  forall rest st out, nonreg_start rest -> reads rest (st ++ [PReal v]) out -> reads (fmt_g q ++ rest) st out.
Proof.
  intros P. destruct (fmt_g_plain q P) as (v & V & E). exists v. split; [exact E|]. intros rest st out NR H.
  destruct (fmt_g_token (fun b => b) q P) as (RG & c & r & EC & OH).
  intros [|n] L; [cbn in L; lia|]. rewrite app_length in L.
  assert (Rc : is_regular c = true) by (rewrite EC in RG; cbn in RG; apply andb_true_iff in RG; tauto).
  assert (NS : num_start c = true).
  { unfold num_start. destruct OH as [D|D]; [rewrite D; reflexivity|]. cbn in D.
    destruct D as [<-|[<-|[<-|[<-|[<-|[]]]]]]; try discriminate Rc. reflexivity. }
  cbn [read_instrs]. rewrite EC. cbn [app]. rewrite skip_regular by exact Rc. rewrite NS.
  rewrite app_comm_cons, <- EC, take_regular_app by assumption. rewrite V. apply H.
  rewrite EC in L. cbn in L. lia.
Qed.
Lemma reads_word t c r rest st out : t = c :: r -> forallb is_regular t = true -> num_start c = false ->
  nonreg_start rest -> reads rest [] out -> reads (t ++ rest) st ((t, st) :: out).
Proof.
  intros EC RG NS NR H [|n] L; [cbn in L; lia|]. rewrite app_length in L.
  assert (Rc : is_regular c = true) by (rewrite EC in RG; cbn in RG; apply andb_true_iff in RG; tauto).
  cbn [read_instrs]. rewrite EC. cbn [app]. rewrite skip_regular by exact Rc. rewrite NS, regular_not_delim by exact Rc.
  rewrite app_comm_cons, <- EC, take_regular_app by assumption. rewrite H; [reflexivity|].
  rewrite EC in L. cbn in L. lia.
Qed.
Lemma delim_cases c : is_delim c = true -> In c [40; 41; 60; 62; 91; 93; 123; 125; 47; 37]%N.
Proof.
  unfold is_delim. destruct c as [|p]; [discriminate|]. do 7 (try destruct p as [p|p|]; try discriminate); intros _; cbn; auto 12.
Qed.
Lemma delim_props c : is_delim c = true -> is_ws c = false /\ num_start c = false.
Proof. intros H. apply delim_cases in H. cbn in H. repeat destruct H as [<-|H]; try (split; reflexivity). destruct H. Qed.
Lemma reads_obj w o rest st out : is_delim (hd 0%N w) = true -> hd 0%N w <> 37%N ->
  (forall n, length w <= n -> read_obj n (w ++ rest) = Some (o, rest)) ->
  reads rest (st ++ [o]) out -> reads (w ++ rest) st out.
Proof.
  intros D NC RO H [|n] L; [cbn in L; lia|]. rewrite app_length in L.
  destruct w as [|c w]; [discriminate|]. cbn [hd] in D, NC. cbn in L.
  assert (SK : skip false ((c :: w) ++ rest) = c :: w ++ rest).
  { cbn. assert (W : is_ws c = false).
    { apply delim_props, D. }
    rewrite W. replace (c =? 37)%N with false by (symmetry; apply N.eqb_neq; exact NC). reflexivity. }
  cbn [read_instrs]. rewrite SK.
  assert (NS : num_start c = false).
  { apply delim_props, D. }
  rewrite NS, D. change (c :: w ++ rest) with ((c :: w) ++ rest). destruct n as [|n].
  { specialize (RO 0). destruct rest; cbn in *; lia. }
  rewrite RO by (cbn; lia). apply H. lia.
Qed.
