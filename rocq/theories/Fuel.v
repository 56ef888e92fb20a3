(** * Fuel: the number that bounds the loops of the model does not matter, if it suffices *)
From Verif Require Import Base Num Fonts State Style Words Parse Render Firstfit KnuthPlass Optimum
  Common Draw Layout Document FirstfitProofs.
Open Scope nat_scope.

(** More fuel gives the same result, once it was enough. *)
Definition stable {A} (f : nat -> res A) : Prop :=
  forall n m, n <= m -> f n <> Err EFuel -> f m = f n.
Lemma stable_const {A} (x : res A) : stable (fun _ => x).
Proof. intros n m _ _. reflexivity. Qed.
Lemma stable_bind {A B} (f : nat -> res A) (g : A -> nat -> res B) : stable f -> (forall a, stable (g a)) ->
  stable (fun n => bind (f n) (fun a => g a n)).
Proof.
  intros F G n m L H. destruct (f n) as [a|e] eqn:E; cbn [bind] in *.
  - rewrite (F n m L), E by (rewrite E; discriminate). cbn [bind]. apply G; auto.
  - rewrite (F n m L), E by (rewrite E; congruence). reflexivity.
Qed.
Lemma stable_ext {A} (f g : nat -> res A) : (forall n, f n = g n) -> stable f -> stable g.
Proof. intros E F n m L H. rewrite <- !E in *. apply F; auto. Qed.
Lemma stable_rmap {A B} (h : A -> B) (f : nat -> res A) : stable f -> stable (fun n => rmap h (f n)).
Proof.
  intros F n m L H. rewrite (F n m L); [reflexivity|]. intros E. rewrite E in H. apply H. reflexivity.
Qed.

Section Fuel.
Context {NUM : Num} {ENV : Env NUM}.

Lemma shape_simple_stable : forall ws cols ae lead, stable (fun n => shape_simple n ws cols ae lead).
Proof.
  intros ws cols ae lead n. revert ws cols ae lead.
  induction n as [|n IH]; intros ws cols ae lead m L H; [exfalso; apply H; reflexivity|].
  destruct m as [|m]; [lia|]. cbn [shape_simple] in *. destruct (take_box _ _ _ _) as [b|e]; cbn [bind] in *; [|reflexivity].
  destruct (b_rest b) as [ws'|]; [|reflexivity].
  rewrite (IH (Some ws') (fun i => cols (S i)) false lead m); [reflexivity|lia|]. intros E. rewrite E in H. apply H. reflexivity.
Qed.
Lemma orphan_loop_stable : forall ws ls u cols lead, stable (fun n => orphan_loop n ws ls u cols lead).
Proof.
  intros ws ls u cols lead n. revert ws ls u cols lead.
  induction n as [|n IH]; intros ws ls u cols lead m L H; [exfalso; apply H; reflexivity|].
  destruct m as [|m]; [lia|]. cbn [orphan_loop] in *. destruct (take_box _ _ _ _) as [b|e]; cbn [bind] in *; [|reflexivity].
  destruct (b_rest b) as [ws'|].
  - rewrite (IH (Some ws') (b_lines b) (b_undo b) (fun i => cols (S i)) lead m); [reflexivity|lia|]. intros E. rewrite E in H. apply H. reflexivity.
  - destruct (_ && _ && _); [|reflexivity]. destruct u as [u|]; [|reflexivity].
    destruct (take_box (Some u) _ _ _) as [b'|e]; cbn [bind] in *; [|reflexivity].
    destruct (_ =? 1); [reflexivity|]. apply IH; [lia|exact H].
Qed.
Lemma ff_shape_stable ws cols ae lead av j : stable (fun n => ff_shape n ws cols ae lead av j).
Proof.
  unfold ff_shape. apply (stable_bind (fun n => (if av then shape_orphans else shape_simple) n (Some ws) cols ae lead)
     (fun cs _ => if j then mapM (mapM justify) cs else Ok cs)).
  - destruct av; [|apply shape_simple_stable]. unfold shape_orphans.
    apply (stable_bind (fun _ => take_box (Some ws) (cols 0) ae lead)); [apply stable_const|].
    intros b. destruct (b_rest b); [|apply stable_const]. destruct (_ && _); apply orphan_loop_stable.
  - intros cs. apply stable_const.
Qed.
Lemma repair_stable frags boxes ragged tol P : forall groups q, stable (fun n => repair frags boxes ragged tol P n groups q).
Proof.
  intros groups q n. revert groups q. induction n as [|n IH]; intros groups q m L H; [exfalso; apply H; reflexivity|].
  destruct m as [|m]; [lia|]. cbn [repair] in *. destruct (rev groups) as [|l [|l' r]]; try reflexivity.
  destruct (_ && _ && _); [|reflexivity]. destruct (lay _ _ _ _ _ _) as [ls|e]; cbn [bind] in *; [|reflexivity].
  destruct (per_column _ _) as [g|e]; cbn [bind] in *; [|reflexivity].
  destruct (rev g); [apply IH; [lia|exact H]|]. destruct (_ && _); [reflexivity|]. apply IH; [lia|exact H].
Qed.
Lemma opt_shape_stable ws cols ae lead av ragged tol P : stable (fun n => opt_shape n ws cols ae lead av ragged tol P).
Proof.
  unfold opt_shape. apply (stable_bind (fun _ => into_boxes ws (negb ragged))); [apply stable_const|].
  intros [frags boxes]. destruct (neqb lead n0); [apply stable_const|].
  destruct (if (_ =? 0)%Z then _ else _) as [pre q]. destruct boxes as [|b bl]; [apply stable_const|].
  apply (stable_bind (fun _ => lay frags (b :: bl) ragged tol P q)); [apply stable_const|]. intros ls.
  match goal with |- stable (fun n => bind ?X _) => apply (stable_bind (fun _ => X)); [apply stable_const|] end.
  intros [[pre' q'] ls']. apply (stable_bind (fun _ => per_column ls' q')); [apply stable_const|]. intros g.
  apply (stable_bind (fun n => if av then repair frags (b :: bl) ragged tol P n g q' else Ok g) (fun groups _ => Ok (pre' ++ groups))); [|intros; apply stable_const].
  destruct av; [apply repair_stable|apply stable_const].
Qed.
Lemma shape_stable p ws cols ae lead : stable (fun n => shape n p ws cols ae lead).
Proof.
  unfold shape. destruct (p_optimal p) as [[tol P]|]; apply stable_rmap; [apply opt_shape_stable|apply ff_shape_stable].
Qed.
Lemma fill_paragraph_stable p g cs st lead : stable (fun n => fill_paragraph n p g cs st lead).
Proof.
  unfold fill_paragraph. apply (stable_bind (fun _ => into_words g st)); [apply stable_const|]. intros [[cmd ws] ex].
  apply (stable_bind (fun _ => indent_first ws (p_indent p))); [apply stable_const|]. intros ws'.
  apply (stable_bind (fun n => shape n p ws' _ _ lead) (fun chunks _ => Ok (_, states_after chunks (apply cmd st), ex))); [apply shape_stable|].
  intros; apply stable_const.
Qed.
Lemma para_loop_stable p gs lead : forall cs st, stable (fun n => para_loop n p gs cs st lead).
Proof.
  induction gs as [|g gs IH]; intros cs st; cbn [para_loop]; [apply stable_const|].
  apply (stable_bind (fun n => fill_paragraph n p g cs st lead)
    (fun x n => let '(done, st', ex) := x in match rev done with [] => Err EValue | col :: filled =>
        if ex then do out <- para_loop n p gs (scons col (sdrop (List.length done) cs)) st' lead; Ok (rev filled ++ out)
        else Ok (rev filled ++ [col]) end)); [apply fill_paragraph_stable|].
  intros [[done st'] ex]. destruct (rev done) as [|col filled]; [apply stable_const|]. destruct ex; [|apply stable_const].
  apply (stable_bind (fun n => para_loop n p gs _ st' lead) (fun out _ => Ok (rev filled ++ out))); [apply IH|intros; apply stable_const].
Qed.
Lemma block_columns_stable b base cs : stable (fun n => block_columns n b base cs).
Proof. destruct b; cbn [block_columns]; [apply para_loop_stable|apply stable_const]. Qed.
Lemma auto_loop_stable blocks base : forall doc, stable (fun n => auto_loop n blocks base doc).
Proof.
  induction blocks as [|b r IH]; intros doc; cbn [auto_loop]; [apply stable_const|].
  apply (stable_bind (fun n => block_columns n b base (flat_todo doc)) (fun cols n => do x <- fill_into cols doc; do y <- auto_loop n r base (snd x); Ok (fst x ++ fst y, snd y)));
    [apply block_columns_stable|]. intros cols.
  apply (stable_bind (fun _ => fill_into cols doc) (fun x n => do y <- auto_loop n r base (snd x); Ok (fst x ++ fst y, snd y))); [apply stable_const|].
  intros x. apply (stable_bind (fun n => auto_loop n r base (snd x)) (fun y _ => Ok (fst x ++ fst y, snd y))); [apply IH|intros; apply stable_const].
Qed.
Lemma auto_pages_stable blocks template base pnum : stable (fun n => auto_pages n blocks template base pnum).
Proof.
  unfold auto_pages. apply (stable_bind (fun n => auto_loop n blocks base _) (fun x _ => Ok _)); [apply auto_loop_stable|intros; apply stable_const].
Qed.
End Fuel.
