(** * FontProofs: proofs about Fonts.v (C14-C18, C30) *)
From Verif Require Import Base Gfmt GfmtProofs Atoms PdfSpec AtomsProofs FontSpec.
From Verif Require Import Num Fonts.
From Coq Require Import String Sorting.Sorted.
From Coq Require Permutation FinFun.
Local Open Scope list_scope.
Open Scope nat_scope.
Notation length := List.length.

(** ** C18 *)
Lemma cp1252_decode_char b c : cp1252_decode b = Some c -> cp1252_char c = b.
Proof.
  unfold cp1252_decode. intros H.
  destruct (b <? 128)%N eqn:E1.
  { injection H as <-. unfold cp1252_char. rewrite E1. reflexivity. }
  destruct (b <? 160)%N eqn:E2.
  - assert (Hb : In b (map N.of_nat (seq 128 32))).
    { apply in_map_iff. exists (N.to_nat b). rewrite N2Nat.id. split; auto. apply in_seq. lia. }
    revert H. clear E1 E2. revert b Hb.
    apply (proj1 (Forall_forall (fun b => match nth (N.to_nat (b - 128)) cp1252_80 0%N with
      0%N => None | c0 => Some c0 end = Some c -> cp1252_char c = b) _)).
    repeat (constructor; [intros H; vm_compute in H; try discriminate H; injection H as <-; reflexivity|]).
    constructor.
  - destruct (b <? 256)%N eqn:E3; [|discriminate]. injection H as <-.
    unfold cp1252_char. rewrite E1.
    assert (E4 : (160 <=? b)%N = true) by lia. rewrite E4, E3. reflexivity.
Qed.
Lemma cp1252_char_total c : cp1252_decode (cp1252_char c) = Some c \/ cp1252_char c = 63%N.
Proof.
  unfold cp1252_char. destruct (_ || _) eqn:E.
  - left. unfold cp1252_decode. destruct (c <? 128)%N eqn:E1; auto.
    assert (E2 : (c <? 160)%N = false) by lia. assert (E3 : (c <? 256)%N = true) by lia.
    rewrite E2, E3. reflexivity.
  - destruct (find _ _) as [p|] eqn:F; auto. left.
    apply find_some in F as [F1 F2]. apply N.eqb_eq in F2. subst c.
    clear E. revert p F1.
    apply (proj1 (Forall_forall (fun p => cp1252_decode (fst p) = Some (snd p)) cp1252_high)).
    repeat (constructor; [reflexivity|]). constructor.
Qed.

(** ** C16 *)
Definition hex4 (c : N) : bytes :=
  [hexdigitU (c / 4096); hexdigitU (c / 256 mod 16); hexdigitU (c / 16 mod 16); hexdigitU (c mod 16)]%N.
Definition below_step (p : N -> bool) (x : N * bool) : N * bool :=
  ((fst x + 1)%N, snd x && p (fst x)).
Definition all_below (n : N) (p : N -> bool) : bool := snd (N.iter n (below_step p) (0%N, true)).
Lemma all_below_spec n p : all_below n p = true -> forall c, (c < n)%N -> p c = true.
Proof.
  unfold all_below.
  assert (H : fst (N.iter n (below_step p) (0%N, true)) = n
     /\ (snd (N.iter n (below_step p) (0%N, true)) = true ->
         forall c, (c < n)%N -> p c = true)).
  { induction n as [|n [IH1 IH2]] using N.peano_ind; [split; auto; intros; lia|].
    rewrite N.iter_succ. destruct (N.iter n _ _) as [i b].
    unfold below_step. cbn [fst snd] in *. subst i. split; [lia|].
    intros Hb c Hc. apply andb_prop in Hb as [Hb Hp].
    destruct (N.eq_dec c n) as [->|]; auto. apply IH2; auto. lia. }
  apply H.
Qed.
Lemma hexpadU4 c : (c < 65536)%N -> hexpadU 4 c = hex4 c.
Proof.
  intros H.
  assert (A : all_below 65536 (fun c => bytes_eqb (hexpadU 4 c) (hex4 c)) = true) by (vm_compute; reflexivity).
  pose proof (all_below_spec _ _ A c H) as E. unfold bytes_eqb in E.
  destruct (list_eq_dec N.eq_dec (hexpadU 4 c) (hex4 c)); congruence.
Qed.
Lemma hexU_props n : (n < 16)%N -> (hexdigitU n =? 62)%N = false /\ is_ws (hexdigitU n) = false
  /\ hexval (hexdigitU n) = Some n.
Proof.
  intros H. assert (A : all_below 16 (fun n => negb (hexdigitU n =? 62)%N && negb (is_ws (hexdigitU n))
     && match hexval (hexdigitU n) with Some m => (m =? n)%N | None => false end) = true)
    by (vm_compute; reflexivity).
  pose proof (all_below_spec _ _ A n ltac:(lia)) as E. cbv beta in E.
  destruct (hexval (hexdigitU n)) as [m|]; [|rewrite andb_false_r in E; discriminate].
  rewrite !andb_true_iff, !negb_true_iff, N.eqb_eq in E. destruct E as [[E1 E2] ->]. auto.
Qed.
Lemma read_hex4 c rest : (c < 65536)%N ->
  read_hex None (hex4 c ++ rest) = option_map (fun p => ((c / 256)%N :: (c mod 256)%N :: fst p, snd p)) (read_hex None rest).
Proof.
  intros H. unfold hex4. cbn [app read_hex].
  destruct (hexU_props (c / 4096) ltac:(lia)) as (-> & -> & ->).
  destruct (hexU_props (c / 256 mod 16) ltac:(lia)) as (-> & -> & ->).
  destruct (hexU_props (c / 16 mod 16) ltac:(lia)) as (-> & -> & ->).
  destruct (hexU_props (c mod 16) ltac:(lia)) as (-> & -> & ->).
  destruct (read_hex None rest) as [[s r]|]; cbn; auto.
  replace (16 * (c / 4096) + c / 256 mod 16)%N with (c / 256)%N by lia.
  replace (16 * (c / 16 mod 16) + c mod 16)%N with (c mod 256)%N by lia. reflexivity.
Qed.
Definition utf16_units (c : N) : list N :=
  if (c <=? 65535)%N then [c] else [55296 + (c - 65536) / 1024; 56320 + c mod 1024]%N.
Lemma utf16be_hex_units c : (c < 1114112)%N ->
  utf16be_hex c = flat_map hex4 (utf16_units c) /\ Forall (fun u => u < 65536)%N (utf16_units c).
Proof.
  intros H. unfold utf16be_hex, utf16_units. destruct (c <=? 65535)%N eqn:E.
  - split; [apply hexpadU4; lia | repeat constructor; lia].
  - assert (A1 : all_below 1024 (fun j => (N.lor j 55296 =? 55296 + j)%N && (N.lor j 56320 =? 56320 + j)%N) = true)
      by (vm_compute; reflexivity).
    rewrite N.shiftr_div_pow2. change (2 ^ 10)%N with 1024%N.
    change 1023%N with (N.ones 10). rewrite N.land_ones. change (2 ^ 10)%N with 1024%N.
    pose proof (all_below_spec _ _ A1 ((c - 65536) / 1024)%N ltac:(lia)) as E1. cbv beta in E1.
    pose proof (all_below_spec _ _ A1 (c mod 1024)%N ltac:(lia)) as E2. cbv beta in E2.
    apply andb_prop in E1 as [E1 _], E2 as [_ E2]. apply N.eqb_eq in E1, E2. rewrite E1, E2.
    rewrite !hexpadU4 by lia. split; [reflexivity | repeat constructor; lia].
Qed.
Definition unit_bytes (u : N) : bytes := [(u / 256)%N; (u mod 256)%N].
Lemma read_hex_units us rest : Forall (fun u => u < 65536)%N us ->
  read_hex None (flat_map hex4 us ++ 62%N :: rest) = Some (flat_map unit_bytes us, rest).
Proof.
  induction 1 as [|u us Hu Hus IH]; [reflexivity|]. cbn [flat_map]. rewrite <- app_assoc.
  rewrite read_hex4 by auto. rewrite IH. reflexivity.
Qed.
Lemma units_bytes us : units (flat_map unit_bytes us) = Some us.
Proof.
  induction us as [|u us IH]; [reflexivity|]. cbn [flat_map unit_bytes app units]. rewrite IH. cbn.
  repeat f_equal. lia.
Qed.
Lemma utf16_units_decode c : (c < 1114112)%N -> utf16 (utf16_units c) = [c].
Proof.
  intros H. unfold utf16_units. destruct (c <=? 65535)%N eqn:E; [reflexivity|]. cbn [utf16].
  assert (E1 : is_hi (55296 + (c - 65536) / 1024) = true) by (unfold is_hi; lia).
  assert (E2 : is_lo (56320 + c mod 1024) = true) by (unfold is_lo; lia).
  rewrite E1, E2. cbn. f_equal. lia.
Qed.
Lemma read_utf16be_hex c rest : (c < 1114112)%N ->
  exists d, read_hex None (utf16be_hex c ++ 62%N :: rest) = Some (d, rest) /\ utf16be_decode d = Some [c].
Proof.
  intros H. destruct (utf16be_hex_units c H) as [-> F].
  eexists. split; [apply read_hex_units, F|].
  unfold utf16be_decode. rewrite units_bytes. cbn. rewrite utf16_units_decode by auto. reflexivity.
Qed.

(** ** C14 *)
Definition first_step (acc : list char) (c : char) : list char :=
  if existsb (N.eqb c) acc then acc else acc ++ [c].
Lemma first_step_nodup acc c : NoDup acc -> NoDup (first_step acc c).
Proof.
  unfold first_step. intros H. destruct (existsb _ _) eqn:E; auto.
  apply (Permutation.Permutation_NoDup (l := c :: acc)); [apply Permutation.Permutation_cons_append|].
  constructor; auto. intros Hin. apply not_true_iff_false in E. apply E, existsb_exists.
  exists c. rewrite N.eqb_refl. auto.
Qed.
Lemma fold_first_nodup s acc : NoDup acc -> NoDup (fold_left first_step s acc).
Proof. revert acc; induction s as [|c s IH]; cbn; intros acc H; auto. apply IH, first_step_nodup, H. Qed.

(** invariant of the CID table *)
Definition cids_ok (m : cidmap) : Prop :=
  map snd (cm_entries m) = map N.of_nat (seq 0 (length (cm_entries m))) /\
  cm_next m = N.of_nat (length (cm_entries m)).
Definition codes (m : cidmap) : list char := map fst (cm_entries m).
Lemma find_existsb m c :
  match find (fun e => (fst e =? c)%N) (cm_entries m) with
  | Some e => existsb (N.eqb c) (codes m) = true /\ In (c, snd e) (cm_entries m)
  | None => existsb (N.eqb c) (codes m) = false
  end.
Proof.
  unfold codes. destruct (find _ _) as [e|] eqn:F.
  - apply find_some in F as [F1 F2]. apply N.eqb_eq in F2. split.
    + apply existsb_exists. exists (fst e). split; [apply in_map, F1 | apply N.eqb_eq; auto].
    + subst c. destruct e; auto.
  - apply not_true_iff_false. intros C. apply existsb_exists in C as (x & Hx & E).
    apply N.eqb_eq in E. subst x. apply in_map_iff in Hx as (e & He & Hin).
    pose proof (find_none _ _ F e Hin) as Hn. cbn in Hn. rewrite He, N.eqb_refl in Hn. discriminate.
Qed.
Lemma cid_get_ok m c i m' : cids_ok m -> cid_get m c = (i, m') ->
  cids_ok m' /\ codes m' = first_step (codes m) c /\ In (c, i) (cm_entries m') /\
  (exists tl, cm_entries m' = cm_entries m ++ tl).
Proof.
  intros [H1 H2]. unfold cid_get, first_step. pose proof (find_existsb m c) as F.
  destruct (find _ _) as [e|].
  - destruct F as [F1 F2]. intros E. injection E as <- <-. rewrite F1. repeat split; auto.
    exists []. rewrite app_nil_r. reflexivity.
  - intros E. injection E as <- <-. rewrite F. unfold cids_ok, codes. cbn [cm_entries cm_next].
    rewrite !map_app, H1, H2, app_length. cbn. rewrite seq_app, map_app. cbn.
    repeat split; auto; try lia.
    + apply in_or_app. right. left. reflexivity.
    + eexists; reflexivity.
Qed.
Lemma translate_ok s : forall m is m', cids_ok m -> translate m s = (is, m') ->
  cids_ok m' /\ codes m' = fold_left first_step s (codes m) /\
  Forall2 (fun c i => In (c, i) (cm_entries m')) s is /\
  (exists tl, cm_entries m' = cm_entries m ++ tl).
Proof.
  induction s as [|c s IH]; intros m is m' Hm; cbn [translate].
  - intros E. injection E as <- <-. repeat split; try apply Hm; auto. exists []; rewrite app_nil_r; auto.
  - destruct (cid_get m c) as [i m1] eqn:E1. destruct (translate m1 s) as [is2 m2] eqn:E2.
    intros E. injection E as <- <-.
    destruct (cid_get_ok m c i m1 Hm E1) as (K1 & C1 & I1 & [t1 T1]).
    destruct (IH m1 is2 m2 K1 E2) as (K2 & C2 & F2 & [t2 T2]).
    repeat split; try apply K2.
    + cbn. rewrite C2, C1. reflexivity.
    + constructor; auto. rewrite T2. apply in_or_app; auto.
    + exists (t1 ++ t2). rewrite T2, T1, app_assoc. reflexivity.
Qed.

Lemma cids_code_lt m c i : cids_ok m -> In (c, i) (cm_entries m) -> (i < N.of_nat (length (cm_entries m)))%N.
Proof.
  intros [H _] Hin. apply (in_map snd) in Hin. rewrite H in Hin. cbn in Hin.
  apply in_map_iff in Hin as (k & <- & Hk). apply in_seq in Hk. lia.
Qed.
Lemma cids_inj m : cids_ok m -> NoDup (map snd (cm_entries m)).
Proof.
  intros [H _]. rewrite H. apply FinFun.Injective_map_NoDup; [|apply seq_NoDup].
  intros a b; lia.
Qed.

(** histories *)
Fixpoint encodes (m : cidmap) (hist : list str) : list bytes * cidmap :=
  match hist with
  | [] => ([], m)
  | s :: r => let (b, m1) := encode_subset m s in
              let (bs, m2) := encodes m1 r in (b :: bs, m2)
  end.
Definition code_bytes (m : cidmap) (c : char) (b : bytes) : Prop :=
  exists i, In (c, i) (cm_entries m) /\ b = utf16be_char i.
Lemma encodes_ok hist : forall m outs m', cids_ok m -> encodes m hist = (outs, m') ->
  cids_ok m' /\ codes m' = fold_left first_step (List.concat hist) (codes m) /\
  (exists tl, cm_entries m' = cm_entries m ++ tl) /\
  Forall2 (fun s o => exists is, Forall2 (fun c i => In (c, i) (cm_entries m')) s is
                               /\ o = flat_map utf16be_char is) hist outs.
Proof.
  induction hist as [|s hist IH]; intros m outs m' Hm; cbn [encodes].
  - intros E. injection E as <- <-. repeat split; try apply Hm; auto. exists []; rewrite app_nil_r; auto.
  - unfold encode_subset. destruct (translate m s) as [is m1] eqn:E1.
    destruct (encodes m1 hist) as [bs2 m2] eqn:E2. intros E. injection E as <- <-.
    destruct (translate_ok s m is m1 Hm E1) as (K1 & C1 & F1 & [t1 T1]).
    destruct (IH m1 bs2 m2 K1 E2) as (K2 & C2 & [t2 T2] & F2).
    split; [exact K2|]. split; [|split].
    + cbn [List.concat]. rewrite fold_left_app, <- C1. exact C2.
    + exists (t1 ++ t2). rewrite T2, T1, app_assoc. reflexivity.
    + constructor; auto. exists is. split; auto.
      eapply Forall2_imp; [|exact F1]. cbn. intros a b Hab. rewrite T2. apply in_or_app; auto.
Qed.

(** reading the CMap *)
Definition cmap_entry_line (e : N * N) : bytes :=
  60%N :: hexpadU 4 (snd e) ++ bs "> <" ++ utf16be_hex (fst e) ++ bs ">" ++ nl.
Definition cmap_entry (e : N * N) : entry := (unit_bytes (snd e), flat_map unit_bytes (utf16_units (fst e))).
Definition entry_ok (e : N * N) : Prop := (fst e < 1114112)%N /\ (snd e < 65536)%N.

Lemma after_false c p l : (match p with [] => false | d :: _ => negb (c =? d)%N end) = true ->
  after p (c :: l) = None.
Proof.
  destruct p as [|d p]; [discriminate|]. rewrite negb_true_iff. intros H. unfold after. cbn [length firstn].
  destruct (list_eq_dec _ _ _) as [E|]; auto. injection E as -> _. rewrite N.eqb_refl in H. discriminate.
Qed.
Lemma after_true p l : after p (p ++ l) = Some l.
Proof.
  unfold after. rewrite firstn_app, firstn_all, Nat.sub_diag, skipn_app, skipn_all, Nat.sub_diag. cbn.
  rewrite app_nil_r. destruct (list_eq_dec _ _ _); congruence.
Qed.

Lemma cmap_read_lines es : forall fuel n acc rest,
  Forall entry_ok es ->
  read_cmap (2 * length es + fuel) (Some (n, acc)) 0 true (flat_map cmap_entry_line es ++ rest)
  = read_cmap fuel (Some (n, acc ++ map cmap_entry es)) 0 true rest.
Proof.
  induction es as [|e es IH]; intros fuel n acc rest HF.
  - cbn. rewrite app_nil_r. reflexivity.
  - inversion_clear HF as [|? ? He HF']. destruct He as [Hc Hi].
    replace (2 * length (e :: es) + fuel) with (S (S (2 * length es + fuel))) by (cbn; lia).
    cbn [flat_map]. unfold cmap_entry_line at 1. rewrite <- !app_comm_cons, <- !app_assoc.
    cbn [read_cmap]. change (is_ws 60) with false. rewrite after_false by reflexivity.
    rewrite N.eqb_refl.
    destruct (utf16be_hex_units (fst e) Hc) as [-> F]. rewrite hexpadU4 by auto.
    rewrite read_hex4 by auto.
    change (bs "> <" ++ ?x) with (62%N :: 32%N :: 60%N :: x).
    cbn [read_hex]. change (62 =? 62)%N with true. cbn [option_map fst snd skip is_ws].
    change (bs ">" ++ ?x) with (62%N :: x).
    change ((32 =? 37)%N) with false. change (is_ws 32) with true. cbn [orb].
    change ((60 =? 37)%N) with false. change (is_ws 60) with false. cbv iota.
    rewrite N.eqb_refl, read_hex_units by auto.
    change (nl ++ ?x) with (10%N :: x). cbn [read_cmap app]. change (is_ws 10) with true. cbv iota.
    rewrite IH by auto. rewrite <- app_assoc. reflexivity.
Qed.

Lemma read_cmap_mono f : forall b c s l x, read_cmap f b c s l = Some x ->
  forall k, read_cmap (f + k) b c s l = Some x.
Proof.
  induction f as [|f IH]; intros b c s l x; [discriminate|].
  cbn [read_cmap Nat.add]. intros H k.
  destruct b as [[n es]|].
  - destruct l as [|y r]; [discriminate|].
    destruct (is_ws y); [apply IH, H|].
    destruct (after _ _) as [r'|].
    + destruct (read_cmap f None 0 true r') as [z|] eqn:E; [|discriminate].
      rewrite (IH _ _ _ _ _ E). exact H.
    + destruct (y =? 60)%N; [|discriminate].
      destruct (read_hex None r) as [[src r1]|]; [|discriminate].
      destruct (skip false r1) as [|d r2]; [discriminate|].
      destruct (d =? 60)%N; [|discriminate].
      destruct (read_hex None r2) as [[dst r3]|]; [|discriminate].
      apply IH, H.
  - destruct l as [|y r]; [exact H|].
    destruct (after _ _); [apply IH, H|].
    destruct (is_digit y); apply IH, H.
Qed.
Lemma read_cmap_pre f rest :
  read_cmap (length cmap_pre + f) None 0 true (cmap_pre ++ rest) = read_cmap f None 0 true rest.
Proof. reflexivity. Qed.
Lemma is_digit_not_b c : is_digit c = true -> after (bs "beginbfchar") = after (98%N :: bs "eginbfchar") /\ (c =? 98)%N = false.
Proof. unfold is_digit. intros H. split; [reflexivity|lia]. Qed.
Lemma read_cmap_digits ds : forall f cur rest, Forall (fun c => is_digit c = true) ds ->
  read_cmap (length ds + f) None cur false (ds ++ rest)
  = read_cmap f None (fold_left (fun a c => 10 * a + (c - 48))%N ds cur) false rest.
Proof.
  induction ds as [|d ds IH]; intros f cur rest HF; [reflexivity|].
  inversion_clear HF as [|? ? Hd HF']. cbn [length Nat.add app read_cmap fold_left].
  destruct (is_digit_not_b d Hd) as [-> Hb]. rewrite after_false by (rewrite Hb; reflexivity).
  rewrite Hd. apply IH; auto.
Qed.
Lemma read_cmap_number n f rest :
  read_cmap (length (dec n) + S (S f)) None 0 true (dec n ++ bs " beginbfchar" ++ rest)
  = read_cmap f (Some (n, [])) 0 true rest.
Proof.
  rewrite <- (dec_val n) at 3. unfold digits_val.
  pose proof (dec_digits n) as HF. destruct (dec n) as [|d ds] eqn:E; [apply dec_nonnil in E; contradiction|].
  inversion_clear HF as [|? ? Hd HF']. cbn [length Nat.add app read_cmap fold_left].
  destruct (is_digit_not_b d Hd) as [-> Hb]. rewrite after_false by (rewrite Hb; reflexivity).
  rewrite Hd. rewrite read_cmap_digits by auto.
  replace (10 * 0 + (d - 48))%N with (d - 48)%N by lia.
  reflexivity.
Qed.
Definition line_len (e : N * N) : nat := length (cmap_entry_line e).
Lemma cmap_read_all m : Forall entry_ok m ->
  cmap_blocks (List.concat (unicode_map m)) = Some [(N.of_nat (length m), map cmap_entry m)].
Proof.
  intros HF. unfold cmap_blocks, unicode_map. cbn [List.concat].
  rewrite concat_app, <- flat_map_concat_map. fold cmap_entry_line.
  change (flat_map (fun e => cmap_entry_line e) m) with (flat_map cmap_entry_line m).
  cbn [List.concat]. rewrite app_nil_r, <- !app_assoc.
  set (text := cmap_pre ++ _).
  assert (R : read_cmap (length cmap_pre + (length (dec (N.of_nat (length m))) + S (S (S (2 * length m + length cmap_post))))) 
                None 0 true text = Some [(N.of_nat (length m), map cmap_entry m)]).
  { unfold text. rewrite read_cmap_pre, read_cmap_number.
    change (read_cmap (S (2 * length m + length cmap_post)) (Some (N.of_nat (length m), [])) 0 true (nl ++ flat_map cmap_entry_line m ++ cmap_post))
      with (read_cmap (2 * length m + length cmap_post) (Some (N.of_nat (length m), [])) 0 true (flat_map cmap_entry_line m ++ cmap_post)).
    rewrite cmap_read_lines by auto. reflexivity. }
  assert (L : 2 * length m <= length (flat_map cmap_entry_line m)).
  { clear. induction m as [|e m IH]; cbn [flat_map length]; [lia|].
    rewrite app_length. unfold cmap_entry_line at 1. cbn [length]. rewrite !app_length.
    change (length (bs "> <")) with 3. lia. }
  assert (exists k, S (length text) = length cmap_pre + (length (dec (N.of_nat (length m))) + S (S (S (2 * length m + length cmap_post)))) + k) as [k ->].
  { exists (S (length text) - (length cmap_pre + (length (dec (N.of_nat (length m))) + S (S (S (2 * length m + length cmap_post)))))).
    unfold text. rewrite !app_length. change (length (bs " beginbfchar")) with 12. lia. }
  apply read_cmap_mono, R.
Qed.

Lemma unit_bytes_inj a b : (a < 65536)%N -> (b < 65536)%N -> unit_bytes a = unit_bytes b -> a = b.
Proof. intros Ha Hb E. unfold unit_bytes in E. injection E as E1 E2. lia. Qed.
Lemma lookup_code_entry m c i : cids_ok m -> Forall entry_ok (cm_entries m) -> In (c, i) (cm_entries m) ->
  lookup_code (map cmap_entry (cm_entries m)) (unit_bytes i) = Some [c].
Proof.
  intros Hm HF Hin. unfold lookup_code. pose proof (cids_inj m Hm) as Hnd.
  rewrite Forall_forall in HF.
  destruct (find _ _) as [e|] eqn:F.
  - apply find_some in F as [F1 F2]. unfold bytes_eqb in F2.
    destruct (list_eq_dec _ _ _) as [E|]; [|discriminate].
    apply in_map_iff in F1 as ([c' i'] & <- & Hin'). cbn [cmap_entry fst snd] in *.
    destruct (HF _ Hin) as [Hc Hi]. destruct (HF _ Hin') as [Hc' Hi']. cbn in *.
    apply unit_bytes_inj in E; auto. subst i'.
    assert (c' = c) as ->.
    { clear -Hnd Hin Hin'. induction (cm_entries m) as [|[a b] l IH]; [contradiction|].
      cbn in Hnd. inversion_clear Hnd as [|? ? Hb Hn].
      destruct Hin as [E1|Hin], Hin' as [E2|Hin']; try congruence; auto.
      - injection E1 as -> ->. exfalso. apply Hb. apply (in_map snd) in Hin'. exact Hin'.
      - injection E2 as -> ->. exfalso. apply Hb. apply (in_map snd) in Hin. exact Hin. }
    unfold utf16be_decode. rewrite units_bytes. cbn. rewrite utf16_units_decode by auto. reflexivity.
  - exfalso. apply (find_none _ _ F (cmap_entry (c, i))) in Hin as C || idtac.
    pose proof (find_none _ _ F (cmap_entry (c, i)) (in_map cmap_entry _ _ Hin)) as C.
    cbn in C. unfold bytes_eqb in C. destruct (list_eq_dec _ _ _) as [|N]; [discriminate|].
    apply N. reflexivity.
Qed.
Lemma extract_codes m s is : cids_ok m -> Forall entry_ok (cm_entries m) ->
  Forall2 (fun c i => In (c, i) (cm_entries m)) s is ->
  extract (map cmap_entry (cm_entries m)) (flat_map utf16be_char is) = Some s /\
  length (flat_map utf16be_char is) = 2 * length s.
Proof.
  intros Hm HF. induction 1 as [|c i s is Hci HF2 [IH IHl]]; [split; reflexivity|].
  assert (Hi : (i < 65536)%N).
  { rewrite Forall_forall in HF. apply (HF _ Hci). }
  cbn [flat_map]. unfold utf16be_char at 1 3.
  assert (E : (i <? 65536)%N = true) by lia. rewrite E.
  cbn [app extract length]. fold (unit_bytes i). rewrite (lookup_code_entry m c i); auto.
  rewrite IH, IHl. split; [reflexivity|lia].
Qed.

Theorem encodes_recover hist outs m :
  encodes cids_empty hist = (outs, m) ->
  Forall (Forall (fun c => c < 1114112)%N) hist ->
  (N.of_nat (length (cm_entries m)) <= 65536)%N ->
  codes m = first_uses (List.concat hist) /\
  map snd (cm_entries m) = map N.of_nat (seq 0 (length (cm_entries m))) /\
  NoDup (codes m) /\
  exists es, cmap_blocks (List.concat (unicode_map (cm_entries m))) = Some [(N.of_nat (length (cm_entries m)), es)]
   /\ length es = length (cm_entries m)
   /\ Forall2 (fun s o => length o = 2 * length s /\ extract es o = Some s) hist outs.
Proof.
  intros E Hc Hl.
  destruct (encodes_ok hist cids_empty outs m) as (K & C & _ & F); auto.
  { split; reflexivity. }
  split; [exact C|]. split; [apply K|].
  split; [rewrite C; apply fold_first_nodup; constructor|].
  assert (Hin : forall x, In x (codes m) -> (x < 1114112)%N).
  { intros x Hx. rewrite C in Hx. change (codes cids_empty) with (@nil N) in Hx.
    assert (G : forall s acc x, In x (fold_left first_step s acc) -> In x acc \/ In x s).
    { clear. induction s as [|c s IH]; cbn; intros acc x H; auto.
      apply IH in H. unfold first_step in H. destruct H as [H|H]; auto.
      destruct (existsb _ _); auto. apply in_app_or in H as [H|[H|[]]]; auto. }
    destruct (G _ _ _ Hx) as [[]|Hx']. apply in_concat in Hx' as (s & Hs & Hxs).
    rewrite Forall_forall in Hc. specialize (Hc s Hs). rewrite Forall_forall in Hc. auto. }
  assert (HF : Forall entry_ok (cm_entries m)).
  { apply Forall_forall. intros [c i] Hci. split; cbn.
    - apply Hin. apply (in_map fst) in Hci. exact Hci.
    - pose proof (cids_code_lt m c i K Hci). lia. }
  exists (map cmap_entry (cm_entries m)). split; [apply cmap_read_all, HF|].
  split; [apply map_length|].
  eapply Forall2_imp; [|exact F]. cbn. intros s o (is & Hs & ->).
  destruct (extract_codes m s is K HF Hs). auto.
Qed.

(** ** C15 *)
Section Tables.
Context {NUM : Num} {ENV : Env NUM}.
Lemma gid_concat gs l : Forall2 (fun g b => encode_gid g = Ok b) gs l -> forall i g,
  nth_error gs i = Some g -> gid_lookup (List.concat l) i = Some g.
Proof.
  induction 1 as [|g0 b gs l Hg HF IH]; intros i g Hi; [destruct i; discriminate|].
  unfold encode_gid in Hg. destruct (g0 <? 65536)%N eqn:E; [|discriminate].
  apply Ok_inj in Hg. subst b. destruct i as [|i].
  - injection Hi as ->. unfold gid_lookup. cbn. f_equal. lia.
  - cbn in Hi. rewrite <- (IH i g Hi). unfold gid_lookup.
    replace (2 * S i) with (S (S (2 * i))) by lia. reflexivity.
Qed.
Lemma cids_nth m c i : cids_ok m -> In (c, i) (cm_entries m) -> nth_error (codes m) (N.to_nat i) = Some c.
Proof.
  intros [H _] Hin. apply In_nth_error in Hin as (k & Hk).
  assert (Hi : nth_error (map snd (cm_entries m)) k = Some i) by (rewrite (map_nth_error snd _ _ Hk); auto).
  rewrite H in Hi. assert (Hlt : k < length (cm_entries m)) by (apply nth_error_Some; congruence).
  rewrite (map_nth_error N.of_nat k (seq 0 (length (cm_entries m))) (d := k)) in Hi.
  - injection Hi as <-. rewrite Nat2N.id. unfold codes. rewrite (map_nth_error fst _ _ Hk). reflexivity.
  - rewrite nth_error_nth' with (d := 0); [|rewrite seq_length; auto]. rewrite seq_nth; auto.
Qed.
Lemma w_lookup_widths ws i w : nth_error ws i = Some w ->
  match encode_widths ws with AArr l => w_lookup l i | _ => None end = Some (ntrunc w).
Proof.
  intros H. cbn [encode_widths w_lookup]. change (Z.to_nat 0) with 0.
  change (0 <=? 0)%Z with true. assert (Hl : i < length ws) by (apply nth_error_Some; congruence).
  rewrite map_length. cbn [andb Nat.leb]. apply Nat.ltb_lt in Hl. rewrite Nat.add_0_l, Hl, Nat.sub_0_r.
  rewrite (map_nth_error _ _ _ H). reflexivity.
Qed.
Theorem subset_tables f t m id objs c i :
  cids_ok m -> subset_objects f t m id = Ok objs -> In (c, i) (cm_entries m) ->
  exists font w stream,
    obj_lookup (id + 1) objs = Some font /\ dict_lookup (bs "W") font = Some (AArr w) /\
    w_lookup w (N.to_nat i) = Some (ntrunc (charwidth f c)) /\
    dict_lookup (bs "CIDToGIDMap") font = Some (ARef (id + 5)) /\
    obj_lookup (id + 5) objs = Some (AStream stream []) /\
    gid_lookup (List.concat stream) (N.to_nat i) = Some (ttf_gid t (codes m) c).
Proof.
  intros Hm H Hin. unfold subset_objects in H.
  destruct (assert_ _); [|discriminate]. cbn [bind] in H.
  destruct (mapM _ _) as [gids|] eqn:G; [|discriminate]. cbn [bind] in H. apply Ok_inj in H. subst objs.
  apply mapM_ok in G. pose proof (cids_nth m c i Hm Hin) as Hn.
  assert (G2 : Forall2 (fun g b => encode_gid g = Ok b) (map (ttf_gid t (codes m)) (codes m)) gids).
  { clear -G. fold (codes m) in G. revert G. generalize (ttf_gid t (codes m)) as h.
    intros h. induction 1; constructor; auto. }
  unfold obj_lookup. 
  do 3 eexists. cbn [find fst snd].
  assert (E : forall k, (0 < k)%N -> (id =? id + k)%N = false) by (intros; lia).
  rewrite !E by lia. rewrite !N.eqb_refl.
  assert (E2 : forall a b, (a <> b)%N -> (id + a =? id + b)%N = false) by (intros; lia).
  rewrite !E2 by lia. cbn [option_map snd].
  split; [reflexivity|]. split; [reflexivity|].
  split.
  { assert (Hw : nth_error (map (charwidth f) (codes m)) (N.to_nat i) = Some (charwidth f c))
      by (apply map_nth_error; exact Hn).
    apply (w_lookup_widths _ _ _ Hw). }
  split; [reflexivity|]. split; [reflexivity|].
  apply (gid_concat _ _ G2). apply map_nth_error. exact Hn.
Qed.
End Tables.

(** ** C30 *)
Section KernProofs.
Context {NUM : Num}.
Variable table : char -> char -> num.
(** the pairs with their positions *)
Lemma kern_from_in pairs : forall i j k,
  In (j, k) (kern_from table i pairs) <->
  exists a b, nth_error pairs (j - i) = Some (a, b) /\ i <= j /\ k = table a b /\ ntruthy k = true.
Proof.
  induction pairs as [|[a b] r IH]; intros i j k; cbn [kern_from].
  - split; [intros []|]. intros (a & b & H & _). destruct (j - i); discriminate.
  - assert (S1 : In (j, k) (kern_from table (S i) r) <->
       exists a' b', nth_error ((a, b) :: r) (j - i) = Some (a', b') /\ S i <= j /\ k = table a' b' /\ ntruthy k = true).
    { rewrite IH. split; intros (a' & b' & H & Hle & H2); exists a', b'.
      - replace (j - i) with (S (j - S i)) by lia. auto.
      - replace (j - i) with (S (j - S i)) in H by lia. auto. }
    destruct (ntruthy (table a b)) eqn:T.
    + cbn [In]. rewrite S1. split.
      * intros [E|(a' & b' & H & Hle & H2)].
        -- injection E as <- <-. exists a, b. rewrite Nat.sub_diag. cbn. auto.
        -- exists a', b'. repeat split; try tauto; lia.
      * intros (a' & b' & H & Hle & -> & H2). destruct (Nat.eq_dec j i) as [->|].
        -- rewrite Nat.sub_diag in H. injection H as -> ->. left. reflexivity.
        -- right. exists a', b'. repeat split; auto; lia.
    + rewrite S1. split.
      * intros (a' & b' & H & Hle & H2). exists a', b'. repeat split; try tauto; lia.
      * intros (a' & b' & H & Hle & -> & H2). destruct (Nat.eq_dec j i) as [->|].
        -- rewrite Nat.sub_diag in H. injection H as <- <-. congruence.
        -- exists a', b'. repeat split; auto; lia.
Qed.
Lemma kern_from_sorted pairs : forall i, StronglySorted lt (map fst (kern_from table i pairs)).
Proof.
  induction pairs as [|[a b] r IH]; intros i; cbn [kern_from]; [constructor|].
  destruct (ntruthy _); auto. cbn [map fst]. constructor; auto.
  apply Forall_forall. intros x Hx. apply in_map_iff in Hx as ([j k] & <- & Hin).
  apply kern_from_in in Hin as (a' & b' & _ & Hle & _). cbn. lia.
Qed.
Lemma pairwise_nth {A} (l : list A) i :
  nth_error (pairwise l) i =
  match nth_error l i, nth_error l (S i) with Some a, Some b => Some (a, b) | _, _ => None end.
Proof.
  revert i; induction l as [|a l IH]; intros i; [destruct i; reflexivity|].
  destruct l as [|b l].
  - cbn. destruct i as [|[|i]]; reflexivity.
  - cbn [pairwise]. destruct i as [|i]; [reflexivity|]. cbn [nth_error]. rewrite IH. reflexivity.
Qed.
End KernProofs.
