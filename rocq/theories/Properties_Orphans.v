(** * Property C85: orphans in paragraphs with optimal line breaks. *)
From Coq Require Import QArith Qcanon String Lia.
From Verif Require Import Base Gfmt FontSpec Num Fonts State TextSpec Words WordsSpec Parse LineSpec Firstfit FirstfitWidth KnuthPlass Optimum OptimumProofs OptimumOrphans.
From Verif Require Import Properties_Words Properties_Firstfit Properties_KnuthPlass Properties_Optimum.
Local Open Scope list_scope.
Open Scope nat_scope.

(** ** C85.  With orphan avoidance, when the columns are equally wide and the last column
    has room for two lines, a paragraph whose second-last column holds more than two lines
    does not leave a single line in the last one. *)
Theorem C85_no_orphan_at_end : forall (ENV : Env QcNum) fuel ws cols allow_empty (lead w : Qc) ragged tolerance P pre p l,
  (0 < lead)%Qc -> (forall i, 0 <= snd (cols i))%Qc -> (forall i, fst (cols i) = w) ->
  opt_shape fuel ws cols allow_empty lead true ragged tolerance P = Ok (pre ++ [p; l]) ->
  2 < List.length p -> (lead * nZ 2 <= snd (cols (S (List.length pre))))%Qc ->
  List.length l <> 1.
Proof.
  intros ENV fuel ws cols ae lead w ragged tol P pre p l L CP HW E LP HL. destruct (roomy_cols cols lead L CP) as (RM & _).
  eapply opt_no_orphan_end; eauto. apply floor_nonneg; [exact L|]. rewrite Qcmult_comm. exact HL.
Qed.
Print Assumptions C85_no_orphan_at_end.
(** A paragraph that continues in the next column does not leave a single line at the
    bottom of a column that already has content. *)
Theorem C85_no_orphan_at_start : forall (NUM : Num) (ENV : Env NUM) fuel ws cols (lead : num) ragged tolerance P first second rest,
  (forall i, (0 <= nfloordiv (snd (cols i)) lead)%Z) ->
  opt_shape fuel ws cols true lead true ragged tolerance P = Ok (first :: second :: rest) ->
  List.length first <> 1.
Proof. intros. eapply opt_no_orphan_start; eauto. Qed.
Print Assumptions C85_no_orphan_at_start.
(** Every column but the first gets a line, provided that they have room for two. *)
Theorem C85_columns_used_partial : forall (ENV : Env QcNum) fuel ws cols allow_empty (lead : Qc) ragged tolerance P out j g,
  (0 < lead)%Qc -> (forall i, 0 <= snd (cols i))%Qc -> (forall i, 0 < i -> (lead * nZ 2 <= snd (cols i))%Qc) ->
  opt_shape fuel ws cols allow_empty lead true ragged tolerance P = Ok out ->
  nth_error out (S j) = Some g -> g <> [].
Proof.
  intros ENV fuel ws cols ae lead ragged tol P out j g L CP C2 E N. destruct (roomy_cols cols lead L CP) as (RM & _).
  eapply opt_columns_used; eauto. intros i I. apply floor_nonneg; [exact L|]. rewrite Qcmult_comm. apply C2, I.
Qed.
Print Assumptions C85_columns_used_partial.
#[local] Existing Instance ex_words.
Definition olay (ws : list (@wordlike QcNum)) (cols : nat -> Qc * Qc) (ae av : bool) : res (list (list str)) :=
  oshow (opt_shape 50 ws cols ae (nZ 10) av true (nZ 1) ex_params).
(** The hypotheses are met: four lines in columns of three; five in columns of four (4 + 1
    without orphan avoidance); a first column with room for one line only. *)
Example C85_example :
  olay ex_orph (ex_cols 12 35) false true = Ok [[str_of "ab"; str_of "cd"]; [str_of "ef"; str_of "gh"]]
  /\ olay ex_orph5 (ex_cols 12 45) false true = Ok ([] ++ [[str_of "ab"; str_of "cd"; str_of "ef"]; [str_of "gh"; str_of "ij"]])
  /\ olay ex_orph5 (ex_cols 12 45) false false = Ok [[str_of "ab"; str_of "cd"; str_of "ef"; str_of "gh"]; [str_of "ij"]]
  /\ olay ex_orph (fun i => match i with 0 => ex_cols 12 15 0 | _ => ex_cols 12 45 0 end) true true = Ok [[]; [str_of "ab"; str_of "cd"; str_of "ef"; str_of "gh"]]
  /\ Qcleb (nZ 10 * nZ 2) (snd (ex_cols 12 45 1)) = true.
Proof. repeat split; vm_compute; reflexivity. Qed.
(** With columns that have room for one line, a whole column is left empty although it is
    fresh, after a column without room; first-fit uses it. *)
Definition low_cols (i : nat) : Qc * Qc := match i with 0 => ex_cols 12 5 0 | _ => ex_cols 12 15 0 end.
Theorem C85_columns_used_refuted :
  olay ex_orph low_cols true true = Ok [[]; []; [str_of "ab"]; [str_of "cd"]; [str_of "ef"]; [str_of "gh"]]
  /\ show (ff_shape 50 ex_orph low_cols true (Q2Qc 10) true false) = Ok [[]; [str_of "ab"]; [str_of "cd"]; [str_of "ef"]; [str_of "gh"]].
Proof. split; vm_compute; reflexivity. Qed.
Print Assumptions C85_columns_used_refuted.
