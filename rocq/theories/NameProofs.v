(** * NameProofs: sanitize_name *)
From Verif Require Import Base Atoms PdfSpec AtomsProofs.
From Coq Require Import String.
Local Open Scope list_scope.
Open Scope nat_scope.

(** printable ASCII, the characters sanitize_name keeps *)
Definition printable (c : N) : bool := ((32 <=? c) && (c <=? 126))%N.

Lemma sanitize_char_cases c :
  (sanitize_name_char c = [35; 50; 51]%N /\ c = 35%N) \/
  (sanitize_name_char c = [35; 50; 48]%N /\ c = 32%N) \/
  (sanitize_name_char c = [c] /\ (33 <= c <= 126)%N /\ c <> 35%N) \/
  (sanitize_name_char c = [] /\ printable c = false).
Proof.
  unfold sanitize_name_char, printable.
  destruct (N.eqb_spec c 35) as [->|H]; [left; split; reflexivity|].
  destruct ((33 <=? c) && (c <=? 126))%N eqn:E.
  - right; right; left. repeat split; auto; lia.
  - destruct (N.eqb_spec c 32) as [->|H2]; [right; left; split; reflexivity|].
    right; right; right. split; auto. lia.
Qed.

Lemma decode_sanitize s : decode_name (sanitize_name s) = Some (filter printable s).
Proof.
  induction s as [|c s IH]; [reflexivity|].
  cbn [sanitize_name flat_map filter]. fold (sanitize_name s).
  destruct (sanitize_char_cases c) as [[E ->]|[[E ->]|[(E & H & H2)|[E H]]]]; rewrite E.
  - cbn. cbn in IH. rewrite IH. reflexivity.
  - cbn. cbn in IH. rewrite IH. reflexivity.
  - cbn [app decode_name]. replace (c =? 35)%N with false by lia. rewrite IH.
    unfold printable at 2. replace ((32 <=? c) && (c <=? 126))%N with true by lia. reflexivity.
  - rewrite H. exact IH.
Qed.

Lemma is_ws_high c : (33 <= c <= 126)%N -> is_ws c = false.
Proof.
  intros H. destruct (is_ws c) eqn:E; auto. exfalso.
  unfold is_ws in E. destruct c as [|p]; [lia|].
  do 6 (destruct p as [p|p|]; try discriminate E; try lia).
Qed.

Lemma sanitize_regular s : forallb (fun c => negb (is_delim c)) s = true ->
  forallb is_regular (sanitize_name s) = true.
Proof.
  induction s as [|c s IH]; [reflexivity|]. cbn [forallb]. intros H.
  apply andb_true_iff in H as [Hc H]. specialize (IH H).
  cbn [sanitize_name flat_map]. fold (sanitize_name s). rewrite forallb_app, IH, andb_true_r.
  destruct (sanitize_char_cases c) as [[E ->]|[[E ->]|[(E & H1 & H2)|[E H1]]]]; rewrite E; try reflexivity.
  cbn [forallb]. rewrite andb_true_r. unfold is_regular. rewrite is_ws_high by auto. exact Hc.
Qed.

(** The name token as a reader sees it. *)
Definition name_token (l : bytes) : option (bytes * bytes) :=
  match l with
  | c :: r => if (c =? 47)%N
              then let (t, r') := take_regular r in option_map (fun n => (n, r')) (decode_name t)
              else None
  | [] => None
  end.

Lemma sanitize_name_token s rest : forallb (fun c => negb (is_delim c)) s = true ->
  nonreg_start rest ->
  name_token (47%N :: sanitize_name s ++ rest) = Some (filter printable s, rest).
Proof.
  intros H Hr. cbn [name_token]. change (47 =? 47)%N with true. cbn iota.
  rewrite take_regular_app by (auto using sanitize_regular). rewrite decode_sanitize. reflexivity.
Qed.

(** With a delimiter the token ends early. *)
Lemma sanitize_delim_cut s1 d s2 rest :
  forallb (fun c => negb (is_delim c)) s1 = true -> is_delim d = true ->
  exists r, name_token (47%N :: sanitize_name (s1 ++ d :: s2) ++ rest) =
            Some (filter printable s1, d :: r).
Proof.
  intros H1 Hd.
  assert (Hsd : sanitize_name_char d = [d]).
  { unfold is_delim in Hd. destruct d as [|p]; [discriminate|].
    do 7 (destruct p as [p|p|]; try discriminate Hd; try reflexivity). }
  unfold sanitize_name. rewrite flat_map_app. cbn [flat_map]. rewrite Hsd.
  fold (sanitize_name s1) (sanitize_name s2). rewrite <- !app_assoc. cbn [app].
  exists (sanitize_name s2 ++ rest).
  rewrite sanitize_name_token; auto.
  unfold nonreg_start, is_regular. rewrite Hd. rewrite orb_true_r. reflexivity.
Qed.
