(** * Property C81: laying out with IEEE-754 double precision numbers.
    [Float64 pow] is the arithmetic of Python's floats, for any [pow] (see Float64);
    [B2R] is the real number a double stands for, [is_finite] excludes infinities
    and NaN. *)
From Coq Require Import QArith Reals Lra String.
From Flocq Require Import IEEE754.BinarySingleNaN Core.Raux.
From Verif Require Import Base Num NumLaws NumInstances Float64 FloatProofs Fonts State Style TextSpec StateProofs Words WordsSpec WordProofs WordOps
  Parse Render RenderSpec Firstfit LineSpec FirstfitProofs KnuthPlass Optimum OptimumProofs
  Common Draw TextBlock Layout LayoutSpec LayoutProofs LayoutText LayoutPages Properties_Style Properties_Text
  Properties_Firstfit Properties_Optimum Properties_Layout LayoutLaws.
From Verif Require Properties_Words.
From Coq Require Import Lra.
Local Open Scope list_scope.
Open Scope nat_scope.

(** ** The pages, in any lawful arithmetic *)
Section Pages.
Context {NUM : Num} {ENV : Env NUM} (fin : num -> Prop) (LAW : lawful fin).
Lemma pages_ample fuel ps template base pnum pages (h H : num) : fin h -> fin H ->
  le n0 h ->
  (forall n, pg_columns (template n) <> [] /\ Forall (fun c => fin (c_height c) /\ le h (c_height c) /\ le (c_height c) H) (pg_columns (template n))) ->
  Forall (fun p => fit_lines fin h H (para_lead base p)) ps ->
  auto_pages fuel (map (@BPara NUM) ps) template base pnum = Ok pages ->
  Forall (fun p => Forall (ample fin h H) (snd p)) pages
  /\ exists pieces, Forall2 (gives_shapes (ample_from fin h H) fuel base) (map (@BPara NUM) ps) pieces
     /\ flat_map page_shapes pages = concat pieces.
Proof.
  intros Fh FH H0 T B E.
  assert (NW : forall n c, In c (pg_columns (template n)) -> ample fin h H (cf_new c)).
  { intros n c I. destruct (T n) as (_ & F). rewrite Forall_forall in F. destruct (F c I) as (F1 & F2 & F3). split; cbn; [|auto].
    split; [exact F1|]. split; [|exact F3]. eapply (law_trans _ LAW); [apply (law_zero _ LAW)|exact Fh|exact F1|exact H0|exact F2]. }
  eapply (auto_pages_spec (ample_from fin h H) (ample fin h H)) in E as (_ & P & pieces & F & S).
  - split; [|eauto]. apply Forall_forall. intros p I. apply In_nth_error in I as (k & N). apply (P k p N).
  - intros cs cs' X [J1 J2]. split; intros i; rewrite <- X; auto.
  - apply Forall_forall. intros b I. apply in_map_iff in I as (p & <- & I). intros cs out J O. rewrite Forall_forall in B.
    assert (L := B p I). cbn beta in L. cbn [block_columns] in O. pose proof (para_only_adds _ _ _ _ _ O) as OA. split; [exact OA|].
    unfold para_columns in O. change (max_lead _ _) with (para_lead base p) in O.
    pose proof (para_ample fin LAW h H fuel p _ _ cs _ out Fh FH L J O) as RO. split; [exact RO|].
    split; [intros j|intros j]; unfold next_cols; set (i := _ + _).
    + destruct (nth_in_or_default i out (cs i)) as [I2| ->]; [|apply J]. rewrite Forall_forall in RO. apply RO, I2.
    + destruct OA as (NE & _). rewrite nth_overflow; [|unfold i; lia]. destruct out as [|c0 out]; [congruence|].
      replace i with (S (List.length out + j)) by (unfold i; cbn; lia). apply J.
  - intros n. apply T.
  - split; [apply (flat_new template pnum (ample fin h H)); [intros; apply T|intros; eapply NW; eauto]|].
    apply (fresh_new template pnum). intros; apply T.
  - exact NW.
Qed.
Lemma pages_text fuel ps template base pnum pages (h H : num) : fin h -> fin H ->
  all_split -> le n0 h ->
  (forall n, pg_columns (template n) <> [] /\ Forall (fun c => fin (c_height c) /\ le h (c_height c) /\ le (c_height c) H) (pg_columns (template n))) ->
  Forall (fun p => fit_lines fin h H (para_lead base p) /\ para_begins base p) ps ->
  auto_pages fuel (map (@BPara NUM) ps) template base pnum = Ok pages ->
  exists rows, Forall2 (fun p prow => Forall2 shows_text prow (map (map fst) (para_lines base p))) ps rows
   /\ map line_text (flat_map shape_lines (flat_map page_shapes pages)) = concat (map (@concat str) rows).
Proof.
  intros Fh FH HY H0 T B E.
  assert (BL : Forall (fun p => fit_lines fin h H (para_lead base p)) ps) by (eapply Forall_impl; [|exact B]; intros q (X & _); exact X).
  destruct (pages_ample fuel ps template base pnum pages h H Fh FH H0 T BL E) as (_ & pieces & F & S).
  assert (X : exists rows, Forall2 (fun p prow => Forall2 shows_text prow (map (map fst) (para_lines base p))) ps rows
     /\ map (fun s => map (map fst) (para_shape_lines s)) pieces = map (@concat str) rows).
  { eapply Forall2_rows with (R := fun p sl => exists s, gives_shapes (ample_from fin h H) fuel base (BPara p) s
       /\ sl = map (map fst) (para_shape_lines s)).
    - intros p sl I (s & (cs & added & out & J & P & _ & A & ->) & ->). rewrite Forall_forall in B. destruct (B p I) as (L & BT).
      destruct (para_law fin LAW h H fuel base p cs out Fh FH HY BT L J P) as (added' & rows & _ & A' & C & R & _).
      rewrite (adds_unique _ _ _ _ A A'). exists rows. auto.
    - clear -F. remember (map (@BPara NUM) ps) as bs eqn:E. revert ps E.
      induction F as [|b s bs pieces X F IH]; intros [|p ps] E; try discriminate; cbn [map]; constructor.
      + injection E as -> _. eauto.
      + injection E as _ E. auto. }
  destruct X as (rows & R & M). exists rows. split; [exact R|]. rewrite S, <- M. clear.
  induction pieces as [|s pieces IH]; [reflexivity|]. cbn [concat map]. rewrite flat_map_app, map_app, IH. f_equal.
  unfold para_shape_lines. rewrite map_map. reflexivity.
Qed.
End Pages.

(** ** C81.  In double precision: a document of paragraphs, broken in either way, on
    pages whose columns have finite heights between [h] and [H]; every line height is
    positive, at most [h], and not absurdly small: fewer than 2^50 lines fit.  Then, for
    all rounding errors, the lines on the pages show exactly the text of the paragraphs,
    in order, and what is left of every column is finite and not negative. *)
Local Notation real x := (@B2R 53 1024 x).
Local Notation finite x := (@is_finite 53 1024 x = true).
Theorem C81_room_left : forall pow (ENV : Env (Float64 pow)) fuel (ps : list (@para (Float64 pow)))
    (template : Z -> page (@drawing (Float64 pow))) base pnum pages (h H : b64),
  finite h -> finite H -> (0 <= real h)%R ->
  (forall n, pg_columns (template n) <> [] /\
     Forall (fun c : @column (Float64 pow) => finite (c_height c) /\ real h <= real (c_height c) <= real H)%R (pg_columns (template n))) ->
  Forall (fun p => let lead := @para_lead (Float64 pow) base p in
     (finite lead /\ 0 < real lead <= real h /\ real H < IZR (2 ^ 50) * real lead)%R) ps ->
  auto_pages fuel (map (@BPara (Float64 pow)) ps) template base pnum = Ok pages ->
  Forall (fun p => Forall (fun c : @colfill (Float64 pow) => finite (cf_free c) /\ 0 <= real (cf_free c) <= real H)%R (snd p)) pages.
Proof.
  intros pow ENV fuel ps template base pnum pages h H Fh FH H0 T B E.
  assert (LAW := Float64_lawful pow). destruct (nZ64 pow 0 ltac:(lia)) as (F0 & V0). change (@nZ (Float64 pow) 0) with (@n0 (Float64 pow)) in *.
  assert (N0 : @le (Float64 pow) n0 h) by (apply le64; auto; rewrite V0; exact H0).
  assert (T' : forall n, pg_columns (template n) <> [] /\ Forall (fun c : @column (Float64 pow) => fin (c_height c) /\ @le (Float64 pow) h (c_height c) /\ @le (Float64 pow) (c_height c) H) (pg_columns (template n))).
  { intros n. destruct (T n) as (T1 & T2). split; [exact T1|]. eapply Forall_impl; [|exact T2]. intros c (C1 & C2).
    split; [exact C1|]. split; (apply le64; [auto|auto|apply C2]). }
  assert (B' : Forall (fun p => @fit_lines (Float64 pow) fin h H (para_lead base p)) ps).
  { eapply Forall_impl; [|exact B]. intros p (L1 & L2 & L3). split; [|apply le64; auto; apply L2].
    split; [exact L1|]. split; [apply lt64; auto; rewrite V0; apply L2|]. apply most64; auto; apply L2. }
  destruct (@pages_ample (Float64 pow) ENV fin LAW fuel ps template base pnum pages h H Fh FH N0 T' B' E) as (A & _).
  eapply Forall_impl; [|exact A]. intros p A1. eapply Forall_impl; [|exact A1]. intros c ((C1 & C2 & C3) & _).
  split; [exact C1|]. apply le64 in C2; auto. apply le64 in C3; auto.
Qed.
Print Assumptions C81_room_left.
(** ... and, when no string begins with a line break, all text is there *)
Theorem C81_doubles : forall pow (ENV : Env (Float64 pow)) fuel (ps : list (@para (Float64 pow)))
    (template : Z -> page (@drawing (Float64 pow))) base pnum pages (h H : b64),
  @all_split (Float64 pow) ENV -> finite h -> finite H -> (0 <= real h)%R ->
  (forall n, pg_columns (template n) <> [] /\
     Forall (fun c : @column (Float64 pow) => finite (c_height c) /\ real h <= real (c_height c) <= real H)%R (pg_columns (template n))) ->
  Forall (fun p => let lead := @para_lead (Float64 pow) base p in
     (finite lead /\ 0 < real lead <= real h /\ real H < IZR (2 ^ 50) * real lead)%R
     /\ Forall (fun x => begins_text (fst x)) (span_strings base (ISpan (p_style p) (p_content p)))) ps ->
  auto_pages fuel (map (@BPara (Float64 pow)) ps) template base pnum = Ok pages ->
  (exists rows, Forall2 (fun p prow => Forall2 shows_text prow (map (map fst) (para_lines base p))) ps rows
    /\ map line_text (flat_map shape_lines (flat_map page_shapes pages)) = concat (map (@concat str) rows))
  /\ Forall (fun p => Forall (fun c : @colfill (Float64 pow) => finite (cf_free c) /\ 0 <= real (cf_free c) <= real H)%R (snd p)) pages.
Proof.
  intros pow ENV fuel ps template base pnum pages h H HY Fh FH H0 T B E.
  assert (LAW := Float64_lawful pow). destruct (nZ64 pow 0 ltac:(lia)) as (F0 & V0). change (@nZ (Float64 pow) 0) with (@n0 (Float64 pow)) in *.
  assert (N0 : @le (Float64 pow) n0 h) by (apply le64; auto; rewrite V0; exact H0).
  assert (T' : forall n, pg_columns (template n) <> [] /\ Forall (fun c : @column (Float64 pow) => fin (c_height c) /\ @le (Float64 pow) h (c_height c) /\ @le (Float64 pow) (c_height c) H) (pg_columns (template n))).
  { intros n. destruct (T n) as (T1 & T2). split; [exact T1|]. eapply Forall_impl; [|exact T2]. intros c (C1 & C2).
    split; [exact C1|]. split; (apply le64; [auto|auto|apply C2]). }
  assert (B' : Forall (fun p => @fit_lines (Float64 pow) fin h H (para_lead base p) /\ para_begins base p) ps).
  { eapply Forall_impl; [|exact B]. intros p ((L1 & L2 & L3) & BT). split; [|exact BT]. split; [|apply le64; auto; apply L2].
    split; [exact L1|]. split; [apply lt64; auto; rewrite V0; apply L2|]. apply most64; auto; apply L2. }
  split; [exact (@pages_text (Float64 pow) ENV fin LAW fuel ps template base pnum pages h H Fh FH HY N0 T' B' E)|].
  eapply C81_room_left; [exact Fh|exact FH|exact H0|exact T| |exact E]. eapply Forall_impl; [|exact B]. intros p (L & _). exact L.
Qed.
Print Assumptions C81_doubles.
(** In one column: the exact height of its lines is at most that of the column; only a
    column lower than one line can get one line nevertheless, unless it is the first
    one and other content stands in it. *)
Theorem C81_lines_fit : forall pow (ENV : Env (Float64 pow)) fuel (p : @para (Float64 pow)) ws
    (cols : nat -> @num (Float64 pow) * @num (Float64 pow)) allow_empty (lead : @num (Float64 pow)) chunks i ls,
  finite lead -> (0 < real lead)%R ->
  (forall i, finite (snd (cols i)) /\ 0 <= real (snd (cols i)) < IZR (2 ^ 50) * real lead)%R ->
  shape fuel p ws cols allow_empty lead = Ok chunks -> nth_error chunks i = Some ls ->
  (INR (List.length ls) * real lead <= real (snd (cols i)))%R
  \/ (List.length ls = 1 /\ (real (snd (cols i)) < real lead)%R /\ (i = 0 -> allow_empty = false)).
Proof.
  intros pow ENV fuel p ws cols ae lead chunks i ls FL L0 C E N.
  assert (FD : forall i, @nfloordiv (Float64 pow) (snd (cols i)) lead = Zfloor (val (snd (cols i)) / val lead)).
  { intros j. destruct (C j) as (C1 & C2 & C3). apply floordiv_val; assumption. }
  assert (F0 : forall i, (0 <= Zfloor (val (snd (cols i)) / val lead))%Z).
  { intros j. destruct (C j) as (C1 & C2 & C3). apply Zfloor_lub. apply Rmult_le_pos; [exact C2|]. apply Rlt_le, Rinv_0_lt_compat, L0. }
  assert (RM : forall i, (0 <= @nfloordiv (Float64 pow) (snd (cols i)) lead)%Z) by (intros j; rewrite FD; apply F0).
  assert (K : (Z.of_nat (List.length ls) <= Z.max 0 (@max_line_count (Float64 pow) (snd (cols i)) lead (ae && (i =? 0)%nat)))%Z).
  { unfold shape in E. destruct (p_optimal p) as [[tolerance P]|].
    - apply rmap_inv in E as (out & E & ->). rewrite nth_error_map in N. destruct (nth_error out i) as [l|] eqn:NE; [|discriminate].
      injection N as <-. rewrite map_length. eapply opt_counts in E as [-> |E]; eauto; cbn [List.length]; lia.
    - apply rmap_inv in E as (out & E & ->). rewrite nth_error_map in N. destruct (nth_error out i) as [l|] eqn:NE; [|discriminate].
      injection N as <-. rewrite map_length. destruct (is_justify (p_align p)); [|eapply ff_counts; eauto].
      apply ff_justified in E as (cs0 & E & F).
      assert (X : exists l0, nth_error cs0 i = Some l0 /\ List.length l0 = List.length l).
      { clear -F NE. revert i NE. induction F as [|x y xs ys H F IH]; intros [|i] NE; try discriminate.
        - injection NE as ->. exists x. split; [reflexivity|]. clear -H. induction H; cbn; auto.
        - apply IH, NE. }
      destruct X as (l0 & NE0 & <-). eapply ff_counts; eauto. }
  unfold max_line_count in K. rewrite FD in K. set (q := Zfloor (val (snd (cols i)) / val lead)) in *.
  destruct (C i) as (C1 & C2 & C3).
  assert (QL : (IZR q * real lead <= real (snd (cols i)))%R).
  { apply Rle_trans with (val (snd (cols i)) / val lead * val lead)%R; [apply Rmult_le_compat_r; [apply Rlt_le, L0|apply Zfloor_lb]|].
    right. unfold val. field. apply Rgt_not_eq, L0. }
  assert (GO : (Z.of_nat (List.length ls) <= q)%Z -> (INR (List.length ls) * real lead <= real (snd (cols i)))%R).
  { intros H. eapply Rle_trans; [|exact QL]. apply Rmult_le_compat_r; [apply Rlt_le, L0|]. rewrite INR_IZR_INZ. apply IZR_le, H. }
  specialize (F0 i). fold q in F0. destruct (Z.eqb_spec q 0) as [Q0|Q0]; [|left; apply GO; lia].
  destruct (ae && (i =? 0)%nat) eqn:A; [left; apply GO; lia|].
  destruct (List.length ls) as [|[|k]]; [left; apply GO; lia| |lia].
  right. split; [reflexivity|]. split; [|intros ->; rewrite andb_true_r in A; exact A].
  assert (U := Zfloor_ub (val (snd (cols i)) / val lead)). fold q in U. rewrite Q0 in U.
  apply Rmult_lt_compat_r with (r := val lead) in U; [|exact L0].
  replace (val (snd (cols i)) / val lead * val lead)%R with (val (snd (cols i))) in U by (field; apply Rgt_not_eq, L0).
  unfold val in U. lra.
Qed.
Print Assumptions C81_lines_fit.
(** 0.3 holds two lines of 0.1: the double nearest 0.3 is below three times the one
    nearest 0.1. *)
Definition ex_pow (x : b64) (n : nat) : b64 := Nat.iter n (bmul x) (bof 1).
#[local] Instance ex_num : Num := Float64 ex_pow.
Example C81_decimals : nfloordiv (nQ (3 # 10)%Q) (nQ (1 # 10)%Q) = 2%Z /\ nltb (nadd (nQ (1 # 10)%Q) (nQ (2 # 10)%Q)) (nQ (3 # 10)%Q) = false
  /\ neqb (nadd (nQ (1 # 10)%Q) (nQ (2 # 10)%Q)) (nQ (3 # 10)%Q) = false.
Proof. vm_compute. repeat split. Qed.
#[local] Instance ex_doubles : Env ex_num := {|
  charwidth := fun _ c => nZ (500 + Z.of_N c);
  kerntab := fun f => None;
  hyphenator := fun _ w => [w];
  is_wordchar := fun c => ((65 <=? c) && (c <=? 122))%N |}.
Definition dbl_column (y : Z) : @column ex_num := mkColumn (mkXY (nQ (1 # 10)%Q) (nZ 20)) (nZ 9) (nQ (y # 10)%Q).
Definition dbl_template (n : Z) : page (@drawing ex_num) :=
  mkPage [] (mkXY (nZ 20) (nZ 40)) 0%Z (if Z.even n then [dbl_column 36; dbl_column 49] else [dbl_column 25]).
Definition dbl_style : @style ex_num := @mkStyle ex_num None (Some (nQ (11 # 10)%Q)) None None None (Some (nQ (11 # 10)%Q)) None.
Definition dbl_par (t : string) (optimal : bool) : @para ex_num :=
  @mkPara ex_num [IStr (Properties_Words.str_of t)] dbl_style AJustify (nQ (3 # 10)%Q) true
    (if optimal then Some (nZ 3, mkParams (nZ 1000) (nZ 1000) (nZ 1000)) else None).
Definition dbl_ps : list para :=
  [dbl_par "one two three four five six seven eight nine ten eleven twelve" true; dbl_par "thirteen fourteen fifteen" false].
Definition dbl_pages := auto_pages 100 (map (@BPara ex_num) dbl_ps) dbl_template full_default 1.
Lemma dbl_le (x y : b64) : is_finite x && is_finite y && Bleb x y = true -> (B2R x <= B2R y)%R.
Proof. intros H. apply andb_true_iff in H as [H L]. apply andb_true_iff in H as [X Y]. apply le_val; assumption. Qed.
Lemma dbl_lt (x y : b64) : is_finite x && is_finite y && Bltb x y = true -> (B2R x < B2R y)%R.
Proof. intros H. apply andb_true_iff in H as [H L]. apply andb_true_iff in H as [X Y]. apply lt_val; assumption. Qed.
Example C81_example :
  let h := nQ (25 # 10)%Q in let H := nQ (49 # 10)%Q in
  all_split /\ finite h /\ finite H /\ (0 <= real h)%R
  /\ (forall n, pg_columns (dbl_template n) <> [] /\
     Forall (fun c : @column ex_num => finite (c_height c) /\ real h <= real (c_height c) <= real H)%R (pg_columns (dbl_template n)))
  /\ Forall (fun p => let lead := @para_lead ex_num full_default p in
     (finite lead /\ 0 < real lead <= real h /\ real H < IZR (2 ^ 50) * real lead)%R
     /\ Forall (fun x => begins_text (fst x)) (span_strings full_default (ISpan (p_style p) (p_content p)))) dbl_ps
  /\ rmap (map (fun p => map (fun c => map line_text (flat_map (fun b => shape_lines (snd b)) (cf_blocks c))) (snd p))) dbl_pages
     = Ok (map (map (map Properties_Words.str_of))
        [[["one two three"; "four five"]]; [["six seven"; "eight nine ten"]; ["eleven twelve"; "thirteen"; "fourteen"; "fifteen"]]]%string).
Proof.
  cbn zeta. split; [intros hy w N; split; [apply app_nil_r|repeat constructor; exact N]|].
  split; [vm_compute; reflexivity|]. split; [vm_compute; reflexivity|].
  split; [change 0%R with (B2R (bof 0)); apply dbl_le; vm_compute; reflexivity|].
  split.
  - intros n. unfold dbl_template. cbn [pg_columns]. destruct (Z.even n); (split; [discriminate|]);
      repeat (apply Forall_cons; [split; [vm_compute; reflexivity|split; apply dbl_le; vm_compute; reflexivity]|]); apply Forall_nil.
  - split; [|vm_compute; reflexivity].
    repeat (apply Forall_cons; [split; [split; [vm_compute; reflexivity|split; [split; [change 0%R with (B2R (bof 0)); apply dbl_lt; vm_compute; reflexivity|apply dbl_le; vm_compute; reflexivity]|]]|]|]); try apply Forall_nil;
    try (apply Forall_cons; [exact I|apply Forall_nil]); apply (most64 ex_pow); try (vm_compute; reflexivity);
    change 0%R with (val (bof 0)); apply dbl_lt; vm_compute; reflexivity.
Qed.
