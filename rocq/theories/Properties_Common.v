(** * Properties C60-C62, C65: colours, margins, columns, points. *)
From Coq Require Import QArith Qcanon String Lqa.
From Verif Require Import Base Num Fonts State Common.
Local Open Scope list_scope.
Open Scope nat_scope.

(** ** C60. Hexadecimal numerals: the value of a digit is its place in this list. *)
Definition hex_lower : str := bs "0123456789abcdef".
Definition hex_upper : str := bs "0123456789ABCDEF".
Definition digit_is (c : char) (v : nat) : Prop :=
  nth_error hex_lower v = Some c \/ nth_error hex_upper v = Some c.
Lemma digit_is_hexval c v : digit_is c v -> hexval c = Some (N.of_nat v) /\ v < 16 /\ (c < 127)%N.
Proof.
  intros H. assert (L : v < 16).
  { destruct H as [H|H].
    - change 16 with (List.length hex_lower). apply (proj1 (nth_error_Some hex_lower v)). rewrite H. discriminate.
    - change 16 with (List.length hex_upper). apply (proj1 (nth_error_Some hex_upper v)). rewrite H. discriminate. }
  do 16 (destruct v as [|v];
    [ destruct H as [H|H]; vm_compute in H; injection H as <-; vm_compute; repeat split; lia|]).
  lia.
Qed.
Lemma hexval_lt c x : hexval c = Some x -> (x < 16)%N.
Proof.
  unfold hexval. intros H.
  destruct ((48 <=? c) && (c <=? 57))%N eqn:E1; [injection H as <-; lia|].
  destruct ((97 <=? c) && (c <=? 102))%N eqn:E2; [injection H as <-; lia|].
  destruct ((65 <=? c) && (c <=? 70))%N eqn:E3; [injection H as <-; lia|discriminate].
Qed.
Definition comp255 (n : Z) : Qc := (Q2Qc (inject_Z n) / Q2Qc 255)%Qc.
Lemma comp255_this n : (this (comp255 n) == inject_Z n / 255)%Q.
Proof.
  unfold comp255. rewrite Qcdiv_def, this_mult. unfold Qcinv. rewrite !this_Q2Qc. reflexivity.
Qed.
Lemma comp255_le m n : (m <= n)%Z -> (comp255 m <= comp255 n)%Qc.
Proof.
  intros H. unfold Qcle. rewrite !comp255_this. apply Qmult_le_compat_r; [|discriminate].
  rewrite <- Zle_Qle. exact H.
Qed.
Lemma comp255_255 : comp255 255 = 1%Qc.
Proof. apply Qc_is_canon. vm_compute. reflexivity. Qed.
Lemma comp255_0 : comp255 0 = 0%Qc.
Proof. apply Qc_is_canon. vm_compute. reflexivity. Qed.
Lemma comp255_ok n : (n <= 255)%Z -> @nleb QcNum (comp255 n) n1 = true.
Proof.
  intros H. change (Qcleb (comp255 n) (@n1 QcNum) = true). apply Qcleb_le.
  apply comp255_le in H. rewrite comp255_255 in H. exact H.
Qed.
Lemma rgb_parse_255 (UNI : Uni) r1 r2 g1 g2 b1 b2 r g b :
  int16 r1 r2 = Ok r -> int16 g1 g2 = Ok g -> int16 b1 b2 = Ok b ->
  (r <= 255)%Z -> (g <= 255)%Z -> (b <= 255)%Z ->
  @rgb_parse QcNum UNI (CStr [35; r1; r2; g1; g2; b1; b2]%N)
    = Ok (@mkRGB QcNum (comp255 r) (comp255 g) (comp255 b)).
Proof.
  intros R G B HR HG HB. unfold rgb_parse. change (35 =? 35)%N with true. cbv iota.
  rewrite R, G, B. cbn [bind]. unfold rgb_new.
  change (ndiv (nZ r) (nZ 255)) with (comp255 r). change (ndiv (nZ g) (nZ 255)) with (comp255 g).
  change (ndiv (nZ b) (nZ 255)) with (comp255 b).
  rewrite !comp255_ok by assumption. reflexivity.
Qed.
Lemma int16_digits (UNI : Uni) a b va vb : digit_is a va -> digit_is b vb ->
  int16 a b = Ok (Z.of_nat (16 * va + vb)) /\ 16 * va + vb <= 255.
Proof.
  intros A B. apply digit_is_hexval in A as (A & LA & CA), B as (B & LB & CB).
  unfold int16, to_ascii. replace (a <? 127)%N with true by lia. replace (b <? 127)%N with true by lia.
  rewrite A, B. split; [f_equal|]; lia.
Qed.
Lemma int16_range (UNI : Uni) a b z : int16 a b = Ok z -> (-15 <= z <= 255)%Z.
Proof.
  unfold int16. destruct (hexval (to_ascii a)) as [x|] eqn:A, (hexval (to_ascii b)) as [y|] eqn:B.
  - apply hexval_lt in A, B. intros H; injection H as <-. lia.
  - apply hexval_lt in A. destruct (ascii_space _); [|discriminate]. intros H; injection H as <-. lia.
  - apply hexval_lt in B. destruct (_ || _)%bool; [intros H; injection H as <-; lia|].
    destruct (_ =? _)%N; [|discriminate]. intros H; injection H as <-. lia.
  - discriminate.
Qed.

(** Six hexadecimal digits are accepted and denote the components in 255ths, which
    are between 0 and 1. *)
Theorem C60_hex_colours_partial : forall (UNI : Uni) r1 r2 g1 g2 b1 b2 vr1 vr2 vg1 vg2 vb1 vb2,
  digit_is r1 vr1 -> digit_is r2 vr2 -> digit_is g1 vg1 -> digit_is g2 vg2 ->
  digit_is b1 vb1 -> digit_is b2 vb2 ->
  let comp a b : Qc := (Q2Qc (inject_Z (Z.of_nat (16 * a + b))) / Q2Qc 255)%Qc in
  @rgb_parse QcNum UNI (CStr [35; r1; r2; g1; g2; b1; b2]%N)
    = Ok (@mkRGB QcNum (comp vr1 vr2) (comp vg1 vg2) (comp vb1 vb2))
  /\ Forall (fun x => 0 <= x /\ x <= 1)%Qc [comp vr1 vr2; comp vg1 vg2; comp vb1 vb2].
Proof.
  intros UNI r1 r2 g1 g2 b1 b2 vr1 vr2 vg1 vg2 vb1 vb2 R1 R2 G1 G2 B1 B2 comp.
  destruct (int16_digits UNI _ _ _ _ R1 R2) as [R RL], (int16_digits UNI _ _ _ _ G1 G2) as [G GL],
    (int16_digits UNI _ _ _ _ B1 B2) as [B BL].
  split.
  - apply (rgb_parse_255 UNI _ _ _ _ _ _ _ _ _ R G B); lia.
  - assert (X : forall n, n <= 255 -> (0 <= comp255 (Z.of_nat n) /\ comp255 (Z.of_nat n) <= 1)%Qc).
    { intros n H. rewrite <- comp255_0, <- comp255_255. split; apply comp255_le; lia. }
    repeat constructor; apply X; assumption.
Qed.
Print Assumptions C60_hex_colours_partial.
(** In general an accepted string has seven characters, the first is '#', and no
    component exceeds 1; but *)
Theorem C60_accepted_range_partial : forall (UNI : Uni) (s : str) (c : @rgb QcNum),
  rgb_parse (CStr s) = Ok c ->
  hd 0%N s = 35%N /\ List.length s = 7
  /\ Forall (fun x => Q2Qc (-15 # 255) <= x /\ x <= 1)%Qc [red c; green c; blue c].
Proof.
  intros UNI s c H. unfold rgb_parse in H.
  destruct s as [|h [|r1 [|r2 [|g1 [|g2 [|b1 [|b2 [|? ?]]]]]]]]; try discriminate H.
  destruct (N.eqb_spec h 35) as [->|]; [|discriminate].
  destruct (int16 r1 r2) as [r|] eqn:R; [|discriminate]. cbn [bind] in H.
  destruct (int16 g1 g2) as [g|] eqn:G; [|discriminate]. cbn [bind] in H.
  destruct (int16 b1 b2) as [b|] eqn:B; [|discriminate]. cbn [bind] in H.
  apply int16_range in R, G, B.
  unfold rgb_new in H. destruct (_ && _)%bool; [|discriminate]. cbn [bind assert_] in H.
  apply Ok_inj in H. subst c. split; [reflexivity|]. split; [reflexivity|]. cbn [red green blue].
  assert (X : forall n, (-15 <= n <= 255)%Z -> (Q2Qc (-15 # 255) <= comp255 n /\ comp255 n <= 1)%Qc).
  { intros n [H1 H2]. rewrite <- comp255_255. split; [|apply comp255_le; exact H2].
    apply comp255_le in H1. replace (Q2Qc (-15 # 255)) with (comp255 (-15)); [exact H1|].
    apply Qc_is_canon. vm_compute. reflexivity. }
  repeat constructor; apply X; assumption.
Qed.
Print Assumptions C60_accepted_range_partial.
(** Exactly which components are accepted, for ASCII characters: two digits; a digit next to
    a white space character or after a plus; or a digit after a minus, which negates it. *)
Fixpoint position (c : N) (l : bytes) : option N :=
  match l with
  | [] => None
  | x :: r => if (x =? c)%N then Some 0%N else option_map N.succ (position c r)
  end.
Definition digit_of (c : N) : option N :=
  match position c (bs "0123456789abcdef") with Some v => Some v | None => position c (bs "0123456789ABCDEF") end.
Definition blanks : bytes := [32; 9; 10; 11; 12; 13]%N.   (* space, tab, line feed, vertical tab, form feed, return *)
Definition component (a b : N) : option Z :=
  match digit_of a, digit_of b with
  | Some x, Some y => Some (Z.of_N (16 * x + y))
  | Some x, None => if existsb (N.eqb b) blanks then Some (Z.of_N x) else None
  | None, Some y => if existsb (N.eqb a) (blanks ++ bs "+") then Some (Z.of_N y)
                    else if (a =? 45)%N then Some (- Z.of_N y)%Z else None
  | None, None => None
  end.
Definition ascii_chars : list N := map N.of_nat (seq 0 127).
Definition same_component (UNI : Uni) (a b : N) : bool :=
  match int16 a b, component a b with
  | Ok x, Some y => (x =? y)%Z
  | Err EValue, None => true
  | _, _ => false
  end.
Theorem C60_ascii_components : forall (UNI : Uni) a b, (a < 127)%N -> (b < 127)%N ->
  int16 a b = match component a b with Some z => Ok z | None => Err EValue end.
Proof.
  intros UNI a b A B.
  assert (ALL : forallb (fun a => forallb (fun b => same_component UNI a b) ascii_chars) ascii_chars = true) by (vm_compute; reflexivity).
  assert (IN : forall c, (c < 127)%N -> In c ascii_chars).
  { intros c C. apply in_map_iff. exists (N.to_nat c). split; [apply N2Nat.id|]. apply in_seq. lia. }
  rewrite forallb_forall in ALL. specialize (ALL a (IN a A)). rewrite forallb_forall in ALL. specialize (ALL b (IN b B)).
  unfold same_component in ALL. destruct (int16 a b) as [x|e], (component a b) as [y|]; try discriminate ALL.
  - apply Z.eqb_eq in ALL. now subst.
  - destruct e; discriminate ALL.
  - destruct e; try discriminate ALL. reflexivity.
Qed.
Print Assumptions C60_ascii_components.
(** A triple of numbers is accepted exactly if none exceeds 1, and is kept as it is. *)
Theorem C60_triples : forall (UNI : Uni) (r g b : Qc),
  rgb_parse (CTup [r; g; b]) = (if Qclt_le_dec 1 r then Err EAssertion else if Qclt_le_dec 1 g then Err EAssertion
                                else if Qclt_le_dec 1 b then Err EAssertion else Ok (@mkRGB QcNum r g b)).
Proof.
  intros UNI r g b. cbn [rgb_parse]. unfold rgb_new.
  assert (X : forall x : Qc, @nleb QcNum x n1 = if Qclt_le_dec 1 x then false else true).
  { intros x. change (@nleb QcNum x n1) with (Qcleb x 1%Qc). destruct (Qclt_le_dec 1 x) as [L|L].
    - destruct (Qcleb x 1%Qc) eqn:E; [|reflexivity]. apply Qcleb_le in E. exfalso. eapply Qclt_not_le; eassumption.
    - apply Qcleb_le, L. }
  rewrite !X. destruct (Qclt_le_dec 1 r), (Qclt_le_dec 1 g), (Qclt_le_dec 1 b); reflexivity.
Qed.
Print Assumptions C60_triples.
(** a component can be negative: "#-f-f-f" is accepted. *)
Theorem C60_colours_refuted : forall (UNI : Uni), exists (s : str) (c : @rgb QcNum),
  rgb_parse (CStr s) = Ok c /\ (red c < 0 /\ green c < 0 /\ blue c < 0)%Qc
  /\ Exists (fun ch => forall v, ~ digit_is ch v) (tl s).
Proof.
  intros UNI. exists (bs "#-f-f-f"). eexists. split.
  - apply (rgb_parse_255 UNI 45 102 45 102 45 102 (-15) (-15) (-15)); reflexivity || lia.
  - split; [repeat split; unfold Qclt; vm_compute; reflexivity|].
    constructor. intros v D. apply digit_is_hexval in D. destruct D as [D _]. vm_compute in D. discriminate.
Qed.
Print Assumptions C60_colours_refuted.
#[local] Instance ex_uni : Uni := {| udecimal := fun _ => None; uspace := fun _ => false |}.
Example C60_example : exists c, @rgb_parse QcNum ex_uni (CStr (bs "#fA9225")) = Ok c
  /\ this (red c) = (50 # 51)%Q /\ this (green c) = (146 # 255)%Q /\ this (blue c) = (37 # 255)%Q.
Proof. eexists. split; [vm_compute; reflexivity|]. repeat split. Qed.
Example C60_example_digits : digit_is (nth 1 (bs "#fA9225") 0%N) 15 /\ digit_is (nth 2 (bs "#fA9225") 0%N) 10.
Proof. split; [left|right]; reflexivity. Qed.

(** ** C61. The CSS shorthand: the values are given clockwise from the top; a
    missing left is the right one, a missing bottom the top one, a missing right the
    top one. *)
Definition css {A} (l : list A) : option (A * A * A * A) :=
  match nth_error l 0 with
  | None => None
  | Some top =>
      let or_ (o : option A) (d : A) := match o with Some x => x | None => d end in
      let right := or_ (nth_error l 1) top in
      Some (top, right, or_ (nth_error l 2) top, or_ (nth_error l 3) right)
  end.
Definition sides_tuple {NUM : Num} (s : sides) := (s_top s, s_right s, s_bottom s, s_left s).
Theorem C61_margin_shorthand : forall (NUM : Num) (l : list num),
  (2 <= List.length l <= 4 ->
     exists s, sides_parse (STup l) = Ok s /\ css l = Some (sides_tuple s))
  /\ (~ 2 <= List.length l <= 4 -> sides_parse (STup l) = Err EType).
Proof.
  intros NUM l. destruct l as [|a [|b [|c [|d [|? ?]]]]]; cbn [List.length]; split; intros H;
    try lia; try reflexivity; eexists; (split; [reflexivity|reflexivity]).
Qed.
Print Assumptions C61_margin_shorthand.
Theorem C61_margin_number : forall (NUM : Num) (v : num) (s : sides),
  (exists m, sides_parse (SNum v) = Ok m /\ css [v] = Some (sides_tuple m))
  /\ sides_parse (SSides s) = Ok s
  /\ sides_parse (STup (sides_iter s)) = Ok s.
Proof. intros NUM v s. split; [eexists; split; reflexivity|]. split; [reflexivity|]. destruct s; reflexivity. Qed.
Print Assumptions C61_margin_number.
Example C61_example : @sides_parse QcNum (STup [nZ 1; nZ 2; nZ 3]) = Ok (mkSides (nZ 1) (nZ 2) (nZ 3) (nZ 2)).
Proof. reflexivity. Qed.

(** ** C62. The default column. *)
Section C62.
Open Scope Qc_scope.
(** the point is in the rectangle of the column / of the page minus its margins *)
Definition in_column (c : @column QcNum) (x y : Qc) : Prop :=
  px (c_origin c) <= x /\ x <= px (c_origin c) + c_width c
  /\ py (c_origin c) <= y /\ y <= py (c_origin c) + c_height c.
Definition in_margins (size : @xy QcNum) (m : @sides QcNum) (x y : Qc) : Prop :=
  s_left m <= x /\ x <= px size - s_right m /\ s_bottom m <= y /\ y <= py size - s_top m.
Theorem C62_default_column : forall (D : Type) (content : list D) (size : @xy QcNum) rotate margin m,
  sides_parse margin = Ok m ->
  match page_new content (PXY size) rotate margin [] with
  | Ok p => pg_content p = content /\ pg_size p = size /\ pg_rotate p = rotate
      /\ s_left m + s_right m < px size
      /\ exists c, pg_columns p = [c] /\ (forall x y, in_column c x y <-> in_margins size m x y)
  | Err e => e = EAssertion /\ px size <= s_left m + s_right m
  end.
Proof.
  intros D content size rotate margin m M. unfold page_new. cbn [xy_parse bind].
  unfold default_column. rewrite M. cbn [bind]. unfold column_new. cbn [xy_parse bind].
  destruct (@nltb QcNum n0 _) eqn:E; cbn [assert_ bind].
  - split; [reflexivity|]. split; [reflexivity|]. split; [reflexivity|].
    split; [qc|]. eexists. split; [reflexivity|]. intros x y. unfold in_column, in_margins.
    cbn [c_origin c_width c_height px py]. clear E.
    set (a := s_left m) in *. set (b := s_right m) in *. set (c := s_bottom m) in *. set (d := s_top m) in *.
    set (w := px size) in *. set (h := py size) in *. clearbody a b c d w h.
    split; intros (H1 & H2 & H3 & H4); repeat split; qc.
  - split; [reflexivity|]. qc.
Qed.
Print Assumptions C62_default_column.
End C62.
(** explicit columns are kept, and no margin is needed *)
Theorem C62_explicit_columns : forall (NUM : Num) (D : Type) (content : list D) (size : xy) rotate margin cs,
  cs <> [] -> page_new content (PXY size) rotate margin cs = Ok (mkPage content size rotate cs).
Proof. intros NUM D content size rotate margin cs H. destruct cs; [congruence|reflexivity]. Qed.
Print Assumptions C62_explicit_columns.
(** Every page has a column, and adding a drawing to it succeeds and changes
    nothing but the content. *)
Theorem C62_page_add : forall (NUM : Num) (D : Type) (content : list D) size rotate margin cs p d,
  page_new content size rotate margin cs = Ok p ->
  pg_columns p <> [] /\
  page_add p d = Ok (mkPage (pg_content p ++ [d]) (pg_size p) (pg_rotate p) (pg_columns p)).
Proof.
  intros NUM D content size rotate margin cs p d H. unfold page_new in H.
  destruct (xy_parse size) as [s|]; [|discriminate]. cbn [bind] in H.
  assert (NE : pg_columns p <> []).
  { destruct cs as [|c cs].
    - destruct (default_column s margin) as [c|]; [|discriminate]. cbn [bind] in H. apply Ok_inj in H.
      subst p. discriminate.
    - cbn [bind] in H. apply Ok_inj in H. subst p. discriminate. }
  split; [exact NE|]. unfold page_add. apply C62_explicit_columns, NE.
Qed.
Print Assumptions C62_page_add.
Example C62_example : exists p, @page_new QcNum unit [tt] (PTup [nZ 595; nZ 842]) 90 default_margin [] = Ok p
  /\ map (fun c => (this (px (c_origin c)), this (py (c_origin c)), this (c_width c), this (c_height c))) (pg_columns p)
     = [(72, 72, 451, 698)%Q].
Proof. eexists. split; [vm_compute; reflexivity|]. vm_compute. reflexivity. Qed.
Example C62_example_refused : @page_new QcNum unit [] (PTup [nZ 100; nZ 842]) 0 default_margin [] = Err EAssertion.
Proof. vm_compute. reflexivity. Qed.

(** ** C65. Points. *)
Theorem C65_componentwise : forall (NUM : Num) (a b : xy) (k : num),
  xy_add a (PXY b) = Ok (mkXY (nadd (px a) (px b)) (nadd (py a) (py b)))
  /\ xy_sub a (PXY b) = Ok (mkXY (nsub (px a) (px b)) (nsub (py a) (py b)))
  /\ xy_add a (PTup [px b; py b]) = xy_add a (PXY b)
  /\ xy_sub a (PTup [px b; py b]) = xy_sub a (PXY b)
  /\ xy_mul a k = mkXY (nmul (px a) k) (nmul (py a) k)
  /\ add_x a k = mkXY (nadd (px a) k) (py a) /\ add_y a k = mkXY (px a) (nadd (py a) k)
  /\ xy_flip (xy_flip a) = a
  /\ xy_parse (PTup (xy_iter a)) = Ok a /\ xy_parse (PXY a) = Ok a.
Proof. intros NUM [ax ay] [bx b_y] k. repeat split. Qed.
Print Assumptions C65_componentwise.
(** a tuple of at most two coordinates is that point, missing coordinates being 0; longer
    tuples are refused *)
Theorem C65_parse : forall (NUM : Num) (l : list num),
  match xy_parse (PTup l) with
  | Ok p => List.length l <= 2 /\ px p = nth 0 l n0 /\ py p = nth 1 l n0
  | Err e => e = EType /\ 2 < List.length l
  end.
Proof. intros NUM [|x [|y [|z l]]]; cbn; repeat split; auto with arith. Qed.
Print Assumptions C65_parse.
Theorem C65_indexing : forall (NUM : Num) (a : xy),
  List.length (xy_iter a) = xy_len a
  /\ (forall i, (Z.of_nat i < Z.of_nat (xy_len a))%Z ->
        exists x, xy_getitem a (Z.of_nat i) = Ok x /\ nth_error (xy_iter a) i = Some x)
  /\ (forall i, (i < 0 \/ Z.of_nat (xy_len a) <= i)%Z -> xy_getitem a i = Err EIndex).
Proof.
  intros NUM a. split; [reflexivity|]. split.
  - intros i H. change (xy_len a) with 2 in H.
    destruct i as [|[|i]]; [eexists; split; reflexivity..|lia].
  - intros i H. unfold xy_getitem, getitem. change (xy_len a) with 2 in H.
    destruct (Z.ltb_spec i 0); [reflexivity|].
    destruct (Z.to_nat i) as [|[|n]] eqn:E; try lia. destruct n; reflexivity.
Qed.
Print Assumptions C65_indexing.
Theorem C65_arithmetic : forall (a b c : @xy QcNum) (k : Qc),
  (exists s, xy_add a (PXY b) = Ok s /\ xy_sub s (PXY b) = Ok a)
  /\ (exists s, xy_sub a (PXY b) = Ok s /\ xy_add s (PXY b) = Ok a)
  /\ xy_add a (PXY b) = xy_add b (PXY a)
  /\ (exists s t, xy_add a (PXY b) = Ok s /\ xy_add (xy_mul a k) (PXY (xy_mul b k)) = Ok t /\ xy_mul s k = t)
  /\ (k <> 0%Qc -> exists d, xy_div (xy_mul a k) k = Ok d /\ d = a)
  /\ xy_div a 0%Qc = Err EZeroDiv.
Proof.
  intros [ax ay] [bx b_y] [cx cy] k. unfold xy_add, xy_sub, xy_op, xy_mul, xy_div.
  cbn [px py num QcNum nadd nsub nmul].
  assert (P : forall x y : Qc, (x + y - y = x)%Qc) by (intros; ring).
  assert (Q : forall x y : Qc, (x - y + y = x)%Qc) by (intros; ring).
  split; [eexists; split; [reflexivity|cbn [px py]; f_equal; f_equal; apply P]|].
  split; [eexists; split; [reflexivity|cbn [px py]; f_equal; f_equal; apply Q]|].
  split; [f_equal; f_equal; apply Qcplus_comm|].
  split.
  { eexists _, _. split; [reflexivity|]. split; [reflexivity|]. cbn [px py]. f_equal; apply Qcmult_plus_distr_l. }
  split.
  - intros K. unfold pdiv. change (@neqb QcNum k n0) with (Qceqb k 0).
    replace (Qceqb k 0) with false by (symmetry; apply Qceqb_neq; exact K). cbn [bind].
    eexists. split; [reflexivity|]. cbn [ndiv QcNum].
    assert (R : forall x : Qc, (x * k / k = x)%Qc) by (intros; apply Qcdiv_mult_l; exact K).
    f_equal; apply R.
  - unfold pdiv. change (@neqb QcNum 0%Qc n0) with (Qceqb 0 0). reflexivity.
Qed.
Print Assumptions C65_arithmetic.
Example C65_example : rmap (fun p => map this (xy_iter p)) (@xy_sub QcNum (mkXY (nZ 1) (nZ 2)) (PTup [nZ 3; nZ 4])) = Ok [(-2)%Q; (-2)%Q].
Proof. vm_compute. reflexivity. Qed.
