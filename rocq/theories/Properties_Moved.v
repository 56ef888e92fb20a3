(** * C96: where columns are, and on which page, does not matter for what is put in them. *)
From Coq Require Import QArith Qcanon String.
From Verif Require Import Base Gfmt Num Fonts State Style TextSpec StateProofs Words WordsSpec WordProofs WordOps Parse Render RenderSpec
  Firstfit LineSpec KnuthPlass Optimum Common Draw DrawSpec Show TextBlock Layout LayoutSpec LayoutProofs LayoutText LayoutPages LayoutMoved Document SceneSpec SceneProofs SceneMoved
  Properties_Words Properties_Text Properties_Layout Properties_Document Properties_Scene.
From Coq Require Import Lia.
Local Open Scope string_scope.
Local Open Scope list_scope.
Open Scope nat_scope.

(** the [i]-th of all columns of the pages made from [t] for the numbers [n], [n + 1], ... *)
Definition column_at (t : Z -> @page QcNum (@drawing QcNum)) (n : Z) (i : nat) : @column QcNum :=
  nth i (flat_map (fun k => pg_columns (t (n + Z.of_nat k)%Z)) (seq 0 (S i))) (@mkColumn QcNum (@mkXY QcNum 0%Qc 0%Qc) 0%Qc 0%Qc).
(** the columns of all the pages, as they are filled *)
Definition all_columns (pages : list (@page QcNum (@drawing QcNum) * list (@colfill QcNum))) : list (@colfill QcNum) := flat_map snd pages.
(** from the corner of one column to that of another *)
Definition off_x (c c' : @colfill QcNum) : Qc := (px (c_origin (cf_box c')) - px (c_origin (cf_box c)))%Qc.
Definition off_y (c c' : @colfill QcNum) : Qc := (py (c_origin (cf_box c')) - py (c_origin (cf_box c)))%Qc.

Lemma columns_flat t n i : flat_todo (fun i => pf_new (t (n + Z.of_nat i)%Z)) i = cf_new (column_at t n i).
Proof.
  unfold flat_todo, column_at. rewrite flat_map_concat_map.
  change (@no_col QcNum) with (cf_new (@mkColumn QcNum (@mkXY QcNum 0%Qc 0%Qc) 0%Qc 0%Qc)). rewrite <- (map_nth (@cf_new QcNum)). f_equal.
  rewrite concat_map, map_map. reflexivity.
Qed.
Lemma new_same c c' : c_width c' = c_width c -> c_height c' = c_height c -> same_inside (cf_new c) (cf_new c').
Proof. intros W H. repeat split; auto. Qed.

Lemma nth_map_seq {A} (d : nat -> A) c : forall k s j, nth_error (map d (seq s k)) j = Some c -> c = d (s + j).
Proof.
  induction k as [|k IH]; intros s [|j] E; cbn [seq map nth_error] in E; try discriminate.
  - rewrite Nat.add_0_r. congruence.
  - apply IH in E. rewrite E. f_equal. lia.
Qed.

(** Two series of pages whose columns (counted through all of the pages) have the same
    sizes, one by one, and otherwise lie anywhere, on pages of any sizes, any number on
    each: laying out the same blocks succeeds on both or fails on both in the same way;
    and the columns with the same number have the same height and the same room left, and
    show the same marks, moved from one's corner to the other's.  A column that only
    one of the layouts has (on the rest of its last page) shows nothing. *)
Theorem C96_where_columns_are : forall (ENV : Env QcNum) fuel blocks base t t' n n',
  (forall k, pg_columns (t k) <> []) -> (forall k, pg_columns (t' k) <> []) ->
  (forall i, c_width (column_at t n i) = c_width (column_at t' n' i)) ->
  (forall i, c_height (column_at t n i) = c_height (column_at t' n' i)) ->
  match auto_pages fuel blocks t base n, auto_pages fuel blocks t' base n' with
  | Ok pages, Ok pages' =>
      (forall i c c', nth_error (all_columns pages) i = Some c -> nth_error (all_columns pages') i = Some c' ->
         c_width (cf_box c') = c_width (cf_box c) /\ c_height (cf_box c') = c_height (cf_box c) /\ cf_free c' = cf_free c
         /\ exists ms, shows_alone (cf_ops c) ms /\ shows_alone (cf_ops c') (map (shift_mark (off_x c c') (off_y c c')) ms))
      /\ (forall i c, nth_error (all_columns pages) i = Some c -> nth_error (all_columns pages') i = None -> shows_alone (cf_ops c) [])
      /\ (forall i c, nth_error (all_columns pages') i = Some c -> nth_error (all_columns pages) i = None -> shows_alone (cf_ops c) [])
  | Err e, Err e' => e = e'
  | _, _ => False
  end.
Proof.
  intros ENV fuel blocks base t t' n n' T T' W H.
  assert (P := pages_run fuel base blocks t n T). assert (P' := pages_run fuel base blocks t' n' T').
  set (cs := flat_todo (fun i => pf_new (t (n + Z.of_nat i)%Z))) in *. set (cs' := flat_todo (fun i => pf_new (t' (n' + Z.of_nat i)%Z))) in *.
  assert (R : same_cols cs cs'). { intros i. unfold cs, cs'. rewrite !columns_flat. apply new_same; auto. }
  assert (X := same_run fuel base blocks cs cs' R).
  destruct (auto_pages fuel blocks t base n) as [pages|e]; destruct (run fuel blocks base cs) as [[l d]|e1] eqn:E1; try contradiction;
  destruct (auto_pages fuel blocks t' base n') as [pages'|e']; destruct (run fuel blocks base cs') as [[l' d']|e1'] eqn:E1'; try contradiction; [|congruence].
  destruct P as (k & P). destruct P' as (k' & P'). destruct X as (F2 & D). unfold all_columns. rewrite P, P'.
  assert (LE := F2_same _ _ _ F2).
  assert (EMP : forall c, cf_blocks c = [] -> shows_alone (@cf_ops QcNum c) []). { intros c B g G. exists g. unfold cf_ops. rewrite B. split; [exact G|reflexivity]. }
  assert (TL : forall (l : list (@colfill QcNum)) d k i c, nth_error (l ++ map d (seq 0 (S k))) i = Some c -> List.length l < i -> exists m, i = List.length l + S m /\ c = d (S m)).
  { clear. intros l d k i c E L. rewrite nth_error_app2 in E by lia. apply nth_map_seq in E. exists (i - List.length l - 1). split; [lia|]. rewrite E. f_equal. lia. }
  assert (NL : forall (l : list (@colfill QcNum)) d k i, nth_error (l ++ map d (seq 0 (S k))) i = None -> List.length l < i).
  { clear. intros l d k i E. apply nth_error_None in E. rewrite app_length, map_length, seq_length in E. lia. }
  split; [|split].
  - intros i c c' C C'.
    assert (SI : same_inside c c').
    { destruct (Nat.lt_ge_cases i (List.length l)) as [L|L].
      - rewrite nth_error_app1 in C by exact L. rewrite nth_error_app1 in C' by lia. clear -F2 C C'. revert i C C'.
        induction F2 as [|x x' l l' X _ IH]; intros [|i] C C'; cbn [nth_error] in *; try discriminate; [congruence|eauto].
      - assert (Y : forall (l : list (@colfill QcNum)) d k i c, nth_error (l ++ map d (seq 0 (S k))) i = Some c -> List.length l <= i -> c = d (i - List.length l)).
        { clear. intros l d k i c E L. rewrite nth_error_app2 in E by lia. apply nth_map_seq in E. exact E. }
        rewrite (Y _ _ _ _ _ C L), (Y _ _ _ _ _ C' ltac:(lia)), <- LE. apply D. }
    destruct (column_shows c) as (ms & A). assert (B := column_moved c c' ms SI A). destruct SI as (S1 & S2 & S3 & _). repeat split; auto.
    exists ms. split; [exact A|exact B].
  - intros i c C N. apply NL in N. destruct (TL _ _ _ _ _ C) as (m & _ & ->); [lia|]. rewrite (run_tail _ _ _ _ _ _ E1). apply EMP. unfold cs. rewrite columns_flat. reflexivity.
  - intros i c C N. apply NL in N. destruct (TL _ _ _ _ _ C) as (m & _ & ->); [lia|]. rewrite (run_tail _ _ _ _ _ _ E1'). apply EMP. unfold cs'. rewrite columns_flat. reflexivity.
Qed.
Print Assumptions C96_where_columns_are.

(** A page of two columns side by side, or pages of one column: three paragraphs and a rule
    take three columns.  On the page of two columns the fourth is left empty. *)
#[local] Existing Instance ex_words.
Definition ex_col (x y : Z) : @column QcNum := @mkColumn QcNum (@mkXY QcNum (Q2Qc (inject_Z x)) (Q2Qc (inject_Z y))) (Q2Qc 200) (Q2Qc 31).
Definition ex_two : Z -> @page QcNum (@drawing QcNum) := fun _ => mkPage [] (@A4 QcNum) 0 [ex_col 50 600; ex_col 300 620].
Definition ex_one : Z -> @page QcNum (@drawing QcNum) := fun k => mkPage [] (@A4 QcNum) 0 [ex_col 72 (100 + k)].
Definition ex_moved_blocks : list (@block QcNum) :=
  [BPara (par ex_styled false); BPara (par ex_styled false); @BRule QcNum ex_red (@mkSides QcNum (Q2Qc 2) 0%Qc (Q2Qc 2) 0%Qc); BPara (par ex_styled false)].
Definition ex_layout t := ok_or [] (auto_pages 100 ex_moved_blocks t full_default 1).
Definition ex_marks t : list nat := map (fun c => match scene (@x_start QcNum) (cf_ops c) with Some (_, ms) => List.length ms | None => 0 end) (all_columns (ex_layout t)).
Lemma ex_sizes t : (forall k, pg_columns (t k) <> []) -> (forall k c, In c (pg_columns (t k)) -> exists x y, c = ex_col x y) ->
  forall i, exists x y, column_at t 1 i = ex_col x y.
Proof.
  intros NE A i. unfold column_at. set (l := flat_map _ _).
  assert (L : i < List.length l).
  { assert (G : forall s, List.length s <= List.length (flat_map (fun k => pg_columns (t (1 + Z.of_nat k)%Z)) s)).
    { induction s as [|k s IH]; cbn [flat_map]; [reflexivity|]. rewrite app_length. specialize (NE (1 + Z.of_nat k)%Z). destruct (pg_columns _); [congruence|]. cbn. lia. }
    specialize (G (seq 0 (S i))). rewrite seq_length in G. exact G. }
  assert (I := nth_In l (@mkColumn QcNum (@mkXY QcNum 0%Qc 0%Qc) 0%Qc 0%Qc) L). apply in_flat_map in I as (k & _ & I). exact (A _ _ I).
Qed.
Example C96_example :
  (forall i, c_width (column_at ex_two 1 i) = c_width (column_at ex_one 1 i) /\ c_height (column_at ex_two 1 i) = c_height (column_at ex_one 1 i))
  /\ map (fun p => List.length (snd p)) (ex_layout ex_two) = [2; 2] /\ map (fun p => List.length (snd p)) (ex_layout ex_one) = [1; 1; 1]
  /\ ex_marks ex_two = ex_marks ex_one ++ [0].
Proof.
  split.
  - intros i. destruct (ex_sizes ex_two ltac:(discriminate) ltac:(intros k c [<-|[<-|[]]]; do 2 eexists; reflexivity) i) as (x & y & ->).
    destruct (ex_sizes ex_one ltac:(discriminate) ltac:(intros k c [<-|[]]; do 2 eexists; reflexivity) i) as (x' & y' & ->). split; reflexivity.
  - vm_compute. repeat split.
Qed.
