(** * AtomsProofs: what is written is read back *)
From Verif Require Import Base Gfmt GfmtProofs Atoms PdfSpec.
From Coq Require Import String.
Local Open Scope list_scope.
Open Scope nat_scope.
Notation length := List.length.

(** split a byte into the eight low bits, closing easy cases *)
Ltac bits c :=
  destruct c as [|p]; try reflexivity; try congruence;
  do 8 (try (destruct p as [p|p|]; try reflexivity; try congruence)).

(** ** Literal strings *)
Lemma escape_char_cases c :
  (escape_char c = [c] /\ c <> 92 /\ c <> 40 /\ c <> 41 /\ c <> 13)%N \/
  (exists e, escape_char c = [92; e]%N /\
     forall d r, read_lit d (92 :: e :: r)%N =
       match read_lit d r with Some (s, r') => Some (c :: s, r') | None => None end).
Proof.
  destruct (N.eq_dec c 92) as [->|]; [right; eexists; split; reflexivity|].
  destruct (N.eq_dec c 10) as [->|]; [right; eexists; split; reflexivity|].
  destruct (N.eq_dec c 13) as [->|]; [right; eexists; split; reflexivity|].
  destruct (N.eq_dec c 9) as [->|]; [right; eexists; split; reflexivity|].
  destruct (N.eq_dec c 8) as [->|]; [right; eexists; split; reflexivity|].
  destruct (N.eq_dec c 12) as [->|]; [right; eexists; split; reflexivity|].
  destruct (N.eq_dec c 40) as [->|]; [right; eexists; split; reflexivity|].
  destruct (N.eq_dec c 41) as [->|]; [right; eexists; split; reflexivity|].
  left. repeat split; auto. unfold escape_char. bits c.
Qed.

Lemma read_lit_plain d c r : (c <> 92 -> c <> 40 -> c <> 41 -> c <> 13 ->
  read_lit d (c :: r) =
  match read_lit d r with Some (s, r') => Some (c :: s, r') | None => None end)%N.
Proof. intros. cbn [read_lit]. bits c. Qed.

Lemma read_lit_escape v rest : read_lit 0 (escape v ++ 41%N :: rest) = Some (v, rest).
Proof.
  induction v as [|c v IH]; [reflexivity|].
  unfold escape. simpl flat_map. fold (escape v).
  destruct (escape_char_cases c) as [(E & H1 & H2 & H3 & H4)|(e & E & H)]; rewrite E; simpl app.
  - rewrite read_lit_plain, IH; auto.
  - rewrite H, IH. reflexivity.
Qed.

(** ** Hex strings *)
Lemma hexval_L n : (n < 16)%N -> hexval (hexdigitL n) = Some n.
Proof.
  intros H. unfold hexdigitL, hexval. destruct (N.ltb_spec n 10).
  - replace ((48 <=? 48 + n) && (48 + n <=? 57))%N with true by lia. f_equal. lia.
  - replace ((48 <=? 87 + n) && (87 + n <=? 57))%N with false by lia.
    replace ((65 <=? 87 + n) && (87 + n <=? 70))%N with false by lia.
    replace ((97 <=? 87 + n) && (87 + n <=? 102))%N with true by lia. f_equal. lia.
Qed.
Lemma is_ws_hexL n : (n < 16)%N -> is_ws (hexdigitL n) = false /\ (hexdigitL n =? 62)%N = false.
Proof.
  intros H. unfold hexdigitL.
  assert (forallb (fun n => negb (is_ws (if (n <? 10)%N then (48+n)%N else (87+n)%N)) &&
     negb ((if (n <? 10)%N then (48+n)%N else (87+n)%N) =? 62)%N) (map N.of_nat (seq 0 16)) = true) as HH
   by reflexivity.
  rewrite forallb_forall in HH. specialize (HH n).
  assert (In n (map N.of_nat (seq 0 16))) as Hin.
  { apply in_map_iff. exists (N.to_nat n). split; [lia|]. apply in_seq. lia. }
  apply HH in Hin. apply andb_true_iff in Hin as [Ha Hb].
  split; apply negb_true_iff; assumption.
Qed.

Lemma read_hex_hexlify v rest : Forall is_byte v ->
  read_hex None (hexlify v ++ 62%N :: rest) = Some (v, rest).
Proof.
  induction 1 as [|c v Hc Hv IH]; [reflexivity|].
  unfold is_byte in Hc. cbn [hexlify flat_map]. fold (hexlify v).
  assert (c / 16 < 16)%N as H1 by lia. assert (c mod 16 < 16)%N as H2 by lia.
  cbn [app read_hex].
  destruct (is_ws_hexL _ H1) as [-> ->]. rewrite (hexval_L _ H1).
  destruct (is_ws_hexL _ H2) as [-> ->]. rewrite (hexval_L _ H2).
  rewrite IH. repeat f_equal. lia.
Qed.

(** ** Tokens *)
Definition nonreg_start (rest : bytes) : Prop :=
  match rest with [] => True | c :: _ => is_regular c = false end.

Lemma take_regular_app t rest : forallb is_regular t = true -> nonreg_start rest ->
  take_regular (t ++ rest) = (t, rest).
Proof.
  induction t as [|c t IH]; simpl; intros H Hr.
  - destruct rest as [|c r]; auto. simpl in *. rewrite Hr. reflexivity.
  - apply andb_true_iff in H as [Hc H]. rewrite Hc, IH; auto.
Qed.

Lemma digit_regular c : is_digit c = true -> is_regular c = true.
Proof.
  unfold is_digit. intros H.
  assert (forallb is_regular (map N.of_nat (seq 48 10)) = true) as HH by reflexivity.
  rewrite forallb_forall in HH. apply HH. apply in_map_iff. exists (N.to_nat c).
  split; [lia|]. apply in_seq. lia.
Qed.
Lemma digits_regular t : all_digits t = true -> forallb is_regular t = true.
Proof.
  unfold all_digits. rewrite !forallb_forall. intros H c Hc. apply digit_regular; auto.
Qed.
Lemma dec_all_digits n : all_digits (dec n) = true.
Proof. apply all_digits_Forall, dec_digits. Qed.

Lemma regular_skip c r : is_regular c = true -> skip false (c :: r) = c :: r.
Proof.
  unfold is_regular. intros H. cbn [skip].
  destruct (is_ws c); [discriminate|]. simpl in H.
  destruct (N.eqb_spec c 37) as [->|]; [discriminate|]. reflexivity.
Qed.

Lemma skip_ws1 c r : is_ws c = true -> skip false (c :: r) = skip false r.
Proof. intros H. cbn [skip]. rewrite H. reflexivity. Qed.

(** what can follow an object *)
Definition follow_ok (rest : bytes) : Prop := nonreg_start rest /\ read_ref_tail rest = None.

(** ** The objects an atom denotes (specification) *)
Inductive denotes : atom -> pobj -> Prop :=
| DName v n : decode_name v = Some n -> denotes (AName v) (PName n)
| DInt z : denotes (AInt z) (PInt z)
| DRealI q z : (inject_Z z == g_value q)%Q -> denotes (AReal (Some q)) (PInt z)
| DRealR q r : (r == g_value q)%Q -> denotes (AReal (Some q)) (PReal r)
| DLit v : denotes (ALit v) (PStr v)
| DHex v : denotes (AHex v) (PStr v)
| DArr l l' : Forall2 denotes l l' -> denotes (AArr l) (PArr l')
| DDict l l' : Forall2 (fun kv kv' => decode_name (fst kv) = Some (fst kv')
                                      /\ denotes (snd kv) (snd kv')) l l' ->
               denotes (ADict l) (PDict l')
| DRef t : denotes (ARef t) (PRef t 0).

(** Legal name token: regular characters, decodable escapes. *)
Definition legal_name (v : bytes) : Prop :=
  forallb is_regular v = true /\ exists n, decode_name v = Some n.

(** Well-formed atom trees (no streams inside: those are indirect objects). *)
Fixpoint wf_atom (a : atom) : Prop :=
  match a with
  | AName v => legal_name v
  | AInt _ | ALit _ | ARef _ => True
  | AReal (Some q) => g_plain q = true
  | AReal None => False
  | AHex v => Forall is_byte v
  | AArr l => (fix go (l : list atom) :=
                 match l with [] => True | x :: r => wf_atom x /\ go r end) l
  | ADict l => (fix go (l : list (bytes * atom)) :=
                  match l with [] => True | (k, x) :: r => legal_name k /\ wf_atom x /\ go r end) l
  | AStream _ _ => False
  end.
Lemma wf_arr l : wf_atom (AArr l) <-> Forall wf_atom l.
Proof.
  induction l as [|x l IH]; simpl.
  - split; constructor.
  - simpl in IH. rewrite IH. split; [intros [H1 H2]; constructor; auto | intros H; inversion H; auto].
Qed.
Definition wf_entries (l : list (bytes * atom)) : Prop :=
  Forall (fun kv => legal_name (fst kv) /\ wf_atom (snd kv)) l.
Lemma wf_dict l : wf_atom (ADict l) <-> wf_entries l.
Proof.
  unfold wf_entries. induction l as [|[k x] l IH]; simpl.
  - split; constructor.
  - simpl in IH. rewrite IH. split.
    + intros (H1 & H2 & H3). constructor; auto.
    + intros H; inversion H as [|? ? [Ha Hb] Hc]; subst. auto.
Qed.

Section Ind.
  Variable P : atom -> Prop.
  Hypothesis HName : forall v, P (AName v).
  Hypothesis HInt : forall z, P (AInt z).
  Hypothesis HReal : forall q, P (AReal q).
  Hypothesis HLit : forall v, P (ALit v).
  Hypothesis HHex : forall v, P (AHex v).
  Hypothesis HArr : forall l, Forall P l -> P (AArr l).
  Hypothesis HDict : forall l, Forall (fun kv => P (snd kv)) l -> P (ADict l).
  Hypothesis HStream : forall c l, Forall (fun kv => P (snd kv)) l -> P (AStream c l).
  Hypothesis HRef : forall t, P (ARef t).
  Fixpoint atom_ind' (a : atom) : P a :=
    let ents := fix go (l : list (bytes * atom)) : Forall (fun kv => P (snd kv)) l :=
      match l with
      | [] => Forall_nil _
      | kv :: r => Forall_cons kv (atom_ind' (snd kv)) (go r)
      end in
    match a with
    | AName v => HName v
    | AInt z => HInt z
    | AReal q => HReal q
    | ALit v => HLit v
    | AHex v => HHex v
    | AArr l => HArr l ((fix go (l : list atom) : Forall P l :=
                           match l with
                           | [] => Forall_nil _
                           | x :: r => Forall_cons x (atom_ind' x) (go r)
                           end) l)
    | ADict l => HDict l (ents l)
    | AStream c l => HStream c l (ents l)
    | ARef t => HRef t
    end.
End Ind.

Section RT.
Variable compress : bytes -> bytes.
Notation write_atom := (write_atom compress).

Definition write_kv (kv : bytes * atom) : res (bytes * bytes) :=
  do w <- write_atom (snd kv); Ok (fst kv, w).

Lemma write_arr_eq l : write_atom (AArr l) =
  do ws <- mapM write_atom l; Ok (91%N :: flat_map (fun w => w ++ [32%N]) ws ++ [93%N]).
Proof.
  cbn [Atoms.write_atom]. f_equal.
  induction l as [|x l IH]; [reflexivity|]. cbn [mapM]. rewrite <- IH. reflexivity.
Qed.
Lemma write_ents_eq l :
  (fix go (l : list (bytes * atom)) : res (list (bytes * bytes)) :=
     match l with
     | [] => Ok []
     | (k, x) :: r => do w <- write_atom x; do ws <- go r; Ok ((k, w) :: ws)
     end) l = mapM write_kv l.
Proof.
  induction l as [|[k x] l IH]; [reflexivity|]. cbn [mapM]. rewrite <- IH.
  unfold write_kv. simpl. destruct (write_atom x); reflexivity.
Qed.
Lemma write_dict_eq l : write_atom (ADict l) =
  do ws <- mapM write_kv l; Ok (write_dict_chunks ws).
Proof. cbn [Atoms.write_atom]. rewrite write_ents_eq. reflexivity. Qed.

(** first character of a written atom *)
Definition ok_head (c : N) : Prop := is_digit c = true \/ In c [47; 40; 60; 91; 45]%N.

(** tokens *)
Lemma decZ_head z : exists c r, decZ z = c :: r /\ ok_head c.
Proof.
  unfold ok_head. destruct z as [|p|p]; simpl decZ; [do 2 eexists; split; [reflexivity|left; reflexivity]| |].
  - pose proof (dec_nonnil (N.pos p)). pose proof (dec_digits (N.pos p)) as Hd.
    destruct (dec (N.pos p)) as [|c r]; [congruence|]. inversion Hd; subst. eauto.
  - do 2 eexists. split; [reflexivity|]. right. simpl. tauto.
Qed.
Lemma decZ_regular z : forallb is_regular (decZ z) = true.
Proof.
  destruct z as [|p|p]; simpl decZ; [reflexivity| |simpl];
    apply digits_regular, dec_all_digits.
Qed.
Lemma read_int_decZ z : read_int (decZ z) = Some z.
Proof.
  destruct z as [|p|p]; [reflexivity|..]; simpl decZ; unfold read_int.
  - pose proof (dec_nonnil (N.pos p)) as Hn. pose proof (dec_val (N.pos p)) as Hv.
    pose proof (dec_digits (N.pos p)) as Hd. pose proof (dec_all_digits (N.pos p)) as Ha.
    destruct (dec (N.pos p)) as [|c r]; [congruence|]. inversion_clear Hd.
    rewrite unsign_digit by auto. rewrite Ha, Hv. reflexivity.
  - simpl unsign. pose proof (dec_nonnil (N.pos p)) as Hn. pose proof (dec_val (N.pos p)) as Hv.
    pose proof (dec_all_digits (N.pos p)) as Ha.
    destruct (dec (N.pos p)) as [|c r]; [congruence|]. rewrite Ha, Hv. reflexivity.
Qed.

Lemma with_frac_regular a b : forallb is_regular a = true -> Forall (fun c => is_digit c = true) b ->
  forallb is_regular (with_frac a b) = true.
Proof.
  intros Ha Hb. unfold with_frac.
  destruct (strip0_app b) as [k Hk].
  assert (Hs : forallb is_regular (strip0 b) = true).
  { apply digits_regular. apply all_digits_Forall. rewrite Hk in Hb. apply Forall_app in Hb. tauto. }
  destruct (strip0 b); auto. rewrite forallb_app, Ha. simpl in *. exact Hs.
Qed.
Lemma fmt_fixed_token b m k : forallb is_regular (sign_if b (fmt_fixed m k)) = true /\
  exists c r, sign_if b (fmt_fixed m k) = c :: r /\ ok_head c.
Proof.
  assert (H : forallb is_regular (fmt_fixed m k) = true).
  { apply with_frac_regular; [apply digits_regular, dec_all_digits | apply decpad_digits]. }
  split; [destruct b; simpl; auto|].
  destruct b; simpl; [do 2 eexists; split; [reflexivity|]; right; simpl; tauto|].
  unfold fmt_fixed, with_frac.
  pose proof (dec_nonnil (m / 10 ^ N.of_nat k)) as Hn.
  pose proof (dec_digits (m / 10 ^ N.of_nat k)) as Hd.
  destruct (dec _) as [|c r]; [congruence|]. inversion_clear Hd.
  unfold ok_head. destruct (strip0 _); simpl; eauto.
Qed.
Lemma fmt_g_token q : g_plain q = true ->
  forallb is_regular (fmt_g q) = true /\ exists c r, fmt_g q = c :: r /\ ok_head c.
Proof.
  unfold g_plain, fmt_g. destruct (Qnum q) as [|p|p].
  - intros _. split; [reflexivity|]. do 2 eexists. split; [reflexivity|]. left. reflexivity.
  - unfold fmt_gpos. destruct (sig6 _ _) as [m X]. intros H. apply negb_true_iff in H. rewrite H.
    apply (fmt_fixed_token false).
  - unfold fmt_gpos. destruct (sig6 _ _) as [m X]. intros H. apply negb_true_iff in H. rewrite H.
    apply (fmt_fixed_token true).
Qed.

Lemma write_head a w : wf_atom a -> write_atom a = Ok w -> exists c r, w = c :: r /\ ok_head c.
Proof.
  unfold ok_head. intros Hw H. destruct a as [v|z|[q|]|v|v|l|l|c l|t].
  - injection H as <-. do 2 eexists. split; [reflexivity|]. simpl; tauto.
  - injection H as <-. apply decZ_head.
  - injection H as <-. apply fmt_g_token. exact Hw.
  - discriminate.
  - injection H as <-. do 2 eexists. split; [reflexivity|]. simpl; tauto.
  - injection H as <-. do 2 eexists. split; [reflexivity|]. simpl; tauto.
  - rewrite write_arr_eq in H. apply bind_ok in H as (ws & _ & H). injection H as <-.
    do 2 eexists. split; [reflexivity|]. simpl; tauto.
  - rewrite write_dict_eq in H. apply bind_ok in H as (ws & _ & H). injection H as <-.
    do 2 eexists. split; [reflexivity|]. simpl; tauto.
  - destruct Hw.
  - injection H as <-. pose proof (dec_nonnil t). pose proof (dec_digits t) as Hd.
    destruct (dec t) as [|c r]; [congruence|]. inversion Hd; subst. simpl. eauto.
Qed.

Lemma head_skip c r : ok_head c -> skip false (c :: r) = c :: r.
Proof.
  intros [H|H].
  - apply regular_skip, digit_regular, H.
  - simpl in H. repeat destruct H as [<-|H]; try reflexivity. destruct H.
Qed.
Lemma head_not_R c r : ok_head c -> fst (take_regular (skip false (c :: r))) <> [82%N].
Proof.
  intros H. rewrite head_skip by auto. simpl.
  destruct (is_regular c) eqn:E; [|discriminate].
  destruct (take_regular r) as [t r']. simpl. intros [= -> ->].
  destruct H as [H|H]; [discriminate|]. simpl in H. intuition discriminate.
Qed.

Lemma read_ref_tail_none l t r : take_regular (skip false l) = (t, r) -> t <> [] ->
  fst (take_regular (skip false r)) <> [82%N] -> read_ref_tail l = None.
Proof.
  intros H Ht Hr. unfold read_ref_tail. rewrite H.
  destruct t as [|c t]; [congruence|]. destruct (all_digits (c :: t)); auto.
  destruct (take_regular (skip false r)) as [t2 r']. simpl in Hr.
  destruct t2 as [|x [|y t2]]; auto.
  - destruct (N.eq_dec x 82) as [->|Hx]; [congruence|]. clear - Hx. bits x.
  - clear. bits x.
Qed.

(** Nothing an atom writes can turn a preceding integer into a reference. *)
Lemma no_ref_tail a w c0 rest : wf_atom a -> write_atom a = Ok w ->
  is_ws c0 = true -> is_ws (hd 0%N rest) = true -> rest <> [] ->
  fst (take_regular (skip false rest)) <> [82%N] ->
  read_ref_tail (c0 :: w ++ rest) = None.
Proof.
  intros Hw H Hc0 Hr0 Hrn Hr.
  destruct (write_head a w Hw H) as (c & w' & -> & Hc).
  assert (Hns : nonreg_start rest).
  { destruct rest as [|x r]; simpl; auto. simpl in Hr0. unfold is_regular. rewrite Hr0. reflexivity. }
  assert (Htok : forallb is_regular (c :: w') = true -> read_ref_tail (c0 :: c :: w' ++ rest) = None).
  { intros Hreg. apply (read_ref_tail_none _ (c :: w') rest); [|discriminate|auto].
    rewrite skip_ws1, head_skip by auto.
    rewrite app_comm_cons, take_regular_app by auto. reflexivity. }
  cbn [app].
  assert (Hdel : is_regular c = false -> read_ref_tail (c0 :: c :: w' ++ rest) = None).
  { intros Hf. unfold read_ref_tail. rewrite skip_ws1, head_skip by auto.
    cbn [take_regular]. rewrite Hf. reflexivity. }
  destruct a as [v|z|[q|]|v|v|l|l|cc l|t].
  - apply Hdel. injection H as <- <-. reflexivity.
  - apply Htok. injection H as <-. apply decZ_regular.
  - apply Htok. injection H as H. rewrite <- H. apply (fmt_g_token q). exact Hw.
  - discriminate.
  - apply Hdel. injection H as <- <-. reflexivity.
  - apply Hdel. injection H as <- <-. reflexivity.
  - rewrite write_arr_eq in H. apply bind_ok in H as (ws & _ & H).
    apply Hdel. injection H as <- <-. reflexivity.
  - rewrite write_dict_eq in H. apply bind_ok in H as (ws & _ & H).
    apply Hdel. injection H as <- <-. reflexivity.
  - destruct Hw.
  - injection H as H.
    apply (read_ref_tail_none _ (dec t) (32 :: 48 :: 32 :: 82 :: rest)%N).
    + rewrite skip_ws1, head_skip by auto.
      rewrite app_comm_cons, <- H, <- app_assoc.
      rewrite take_regular_app; [reflexivity|apply digits_regular, dec_all_digits | reflexivity].
    + apply dec_nonnil.
    + discriminate.
Qed.

(** reading one token-like object *)
Lemma read_obj_token n t rest : forallb is_regular t = true -> (exists c r, t = c :: r /\ ok_head c) ->
  nonreg_start rest ->
  hd 0%N t <> 47%N ->
  read_obj (S n) (t ++ rest) =
    match read_int t with
    | Some z =>
        match (if all_digits t then read_ref_tail rest else None) with
        | Some (g, r') => Some (PRef (digits_val t) g, r')
        | None => Some (PInt z, rest)
        end
    | None =>
        match read_real t with
        | Some q => Some (PReal q, rest)
        | None =>
            if list_eq_dec N.eq_dec t (bs "true") then Some (PBool true, rest)
            else if list_eq_dec N.eq_dec t (bs "false") then Some (PBool false, rest)
            else if list_eq_dec N.eq_dec t (bs "null") then Some (PNull, rest)
            else None
        end
    end.
Proof.
  intros Hreg (c & r & -> & Hc) Hns H47.
  pose proof (take_regular_app (c :: r) rest Hreg Hns) as Htk.
  cbn [read_obj]. cbn [app] in *. rewrite head_skip by auto.
  destruct Hc as [Hc|Hc].
  2: { simpl in Hc, H47. destruct Hc as [<-|[<-|[<-|[<-|[<-|[]]]]]]; try discriminate; try congruence.
       rewrite Htk. reflexivity. }
  unfold is_digit in Hc.
  replace (c =? 47)%N with false by lia. replace (c =? 40)%N with false by lia.
  replace (c =? 60)%N with false by lia. replace (c =? 91)%N with false by lia.
  rewrite Htk. reflexivity.
Qed.

Lemma digits_not_nil t : all_digits t = true -> t <> [] -> exists c r, t = c :: r /\ ok_head c.
Proof.
  destruct t as [|c r]; [congruence|]. simpl. intros H _. apply andb_true_iff in H as [H _].
  exists c, r. split; auto. left. auto.
Qed.

(** The main round trip. *)
Definition readable (a : atom) (w : bytes) : Prop :=
  exists o, denotes a o /\
    forall n rest, (length w <= n)%nat -> follow_ok rest ->
      read_obj n (w ++ rest) = Some (o, rest).

Lemma read_arr_items l : Forall (fun a => wf_atom a -> exists w, write_atom a = Ok w /\ readable a w) l ->
  Forall wf_atom l ->
  exists ws, mapM write_atom l = Ok ws /\
  let body := flat_map (fun w => w ++ [32%N]) ws in
  (forall tl, read_ref_tail (32%N :: body ++ 93%N :: tl) = None /\
              fst (take_regular (skip false (32%N :: body ++ 93%N :: tl))) <> [82%N]) /\
  exists os, Forall2 denotes l os /\
    forall n rest, (length body < n)%nat ->
      read_arr n (body ++ 93%N :: rest) = Some (os, rest) /\
      read_arr n (32%N :: body ++ 93%N :: rest) = Some (os, rest).
Proof.
  intros H Hw. induction H as [|a l Ha Hl IH].
  - exists []. split; [reflexivity|]. simpl. split.
    + intros tl. split; [reflexivity|discriminate].
    + exists []. split; [constructor|]. intros [|n] rest Hn; [lia|]. split; reflexivity.
  - inversion Hw as [|? ? Hwa Hwl]; subst.
    destruct (Ha Hwa) as (w & Ew & o & Hden & Hread).
    destruct (IH Hwl) as (ws & Ews & Hnr & os & Hos & Hrd). cbn zeta in *.
    exists (w :: ws). cbn [mapM]. rewrite Ew. cbn [bind]. rewrite Ews. split; [reflexivity|].
    cbn [flat_map].
    set (body := flat_map (fun w => w ++ [32%N]) ws) in *.
    destruct (write_head a w Hwa Ew) as (c & w' & Ew' & Hc).
    assert (Hfol : forall tl, follow_ok (32%N :: body ++ 93%N :: tl)).
    { intros tl. split; [reflexivity|]. apply Hnr. }
    split.
    { intros tl. split.
      - rewrite <- !app_assoc. cbn [app].
        apply (no_ref_tail a w); auto; try discriminate. apply Hnr.
      - rewrite skip_ws1 by reflexivity.
        subst w. rewrite <- !app_assoc. cbn [app]. apply head_not_R. auto. }
    exists (o :: os). split; [constructor; auto|].
    intros n rest Hn. rewrite <- !app_assoc. cbn [app].
    destruct n as [|n]; [lia|].
    rewrite app_length, app_length in Hn. simpl in Hn.
    cbn [read_arr].
    assert (Hgo : match c :: w' ++ 32%N :: body ++ 93%N :: rest with
      | [] => None
      | c :: r => if (c =? 93)%N then Some ([], r) else
             match read_obj n (c :: r) with
             | None => None
             | Some (x, r) => option_map (fun '(xs, r') => (x :: xs, r')) (read_arr n r)
             end
      end = Some (o :: os, rest)).
    { specialize (Hread n (32%N :: body ++ 93%N :: rest) ltac:(lia) (Hfol rest)).
      rewrite Ew' in Hread. cbn [app] in Hread. rewrite Hread.
      destruct (Hrd n rest) as [_ ->]; [lia|].
      replace (c =? 93)%N with false; [reflexivity|].
      destruct Hc as [Hc|Hc].
      - unfold is_digit in Hc. lia.
      - simpl in Hc. destruct Hc as [<-|[<-|[<-|[<-|[<-|[]]]]]]; reflexivity. }
    rewrite Ew' in *. cbn [app] in *.
    split; rewrite ?(skip_ws1 32) by reflexivity; rewrite head_skip by auto; exact Hgo.
Qed.

Lemma nl_slash_nr tl : follow_ok (10%N :: 47%N :: tl).
Proof. split; reflexivity. Qed.
Lemma nl_gt_nr tl : follow_ok (10%N :: 62%N :: tl).
Proof. split; reflexivity. Qed.

Definition dict_body (ws : list (bytes * bytes)) : bytes :=
  flat_map (fun kv : bytes * bytes => 47%N :: fst kv ++ [32%N] ++ snd kv ++ [10%N]) ws.

Lemma read_dict_entries l :
  Forall (fun kv => wf_atom (snd kv) -> exists w, write_atom (snd kv) = Ok w /\ readable (snd kv) w) l ->
  wf_entries l ->
  exists ws, mapM write_kv l = Ok ws /\
  exists os, Forall2 (fun kv kv' => decode_name (fst kv) = Some (fst kv')
                                      /\ denotes (snd kv) (snd kv')) l os /\
    forall n rest, (length (dict_body ws) < n)%nat ->
      read_dict n (10%N :: dict_body ws ++ 62%N :: 62%N :: rest) = Some (os, rest).
Proof.
  intros H Hw. induction H as [|[k a] l Ha Hl IH].
  - exists []. split; [reflexivity|]. exists []. split; [constructor|].
    intros [|n] rest Hn; [simpl in Hn; lia|]. reflexivity.
  - inversion Hw as [|? ? [[Hk1 [k' Hk2]] Hwa] Hwl]; subst. cbn [fst snd] in *.
    destruct (Ha Hwa) as (w & Ew & o & Hden & Hread).
    destruct (IH Hwl) as (ws & Ews & os & Hos & Hrd).
    exists ((k, w) :: ws). split.
    { cbn [mapM]. unfold write_kv at 1. cbn [fst snd]. rewrite Ew. cbn [bind]. rewrite Ews. reflexivity. }
    exists ((k', o) :: os). split; [constructor; auto|].
    intros n rest Hn. unfold dict_body in *. cbn [flat_map fst snd] in *.
    set (body := flat_map (fun kv : bytes * bytes => 47%N :: fst kv ++ [32%N] ++ snd kv ++ [10%N]) ws) in *.
    destruct n as [|n]; [lia|]. rewrite !app_length in Hn.
    cbn [length app] in Hn. repeat (rewrite app_length in Hn; cbn [length app] in Hn).
    cbn [read_dict]. cbn [app].
    match goal with |- context [skip false (10%N :: 47%N :: ?x)] =>
      change (skip false (10%N :: 47%N :: x)) with (47%N :: x) end.
    cbn iota. rewrite <- !app_assoc. cbn [app].
    rewrite take_regular_app by (auto; reflexivity).
    rewrite Hk2.
    assert (Hrs : forall n tl, read_obj n (32%N :: w ++ tl) = read_obj n (w ++ tl)).
    { intros m tl. destruct m as [|m]; [reflexivity|].
      destruct (write_head a w Hwa Ew) as (c & w' & -> & Hc). cbn [app read_obj].
      replace (skip false (32%N :: c :: w' ++ tl)) with (c :: w' ++ tl).
      - rewrite head_skip by auto. reflexivity.
      - rewrite skip_ws1, head_skip by auto. reflexivity. }
    rewrite <- ?app_assoc. cbn [app].
    rewrite Hrs, Hread.
    + rewrite Hrd by lia. reflexivity.
    + lia.
    + destruct ws as [|[k2 w2] ws]; cbn [app]; [apply nl_gt_nr | apply nl_slash_nr].
Qed.

Theorem atom_round_trip a : wf_atom a -> exists w, write_atom a = Ok w /\ readable a w.
Proof.
  induction a as [v|z|[q|]|v|v|l IH|l IH|c l IH|t] using atom_ind'; intros Hw.
  - (* name *) destruct Hw as [Hr [nm Hn]].
    exists (47%N :: v). split; [reflexivity|].
    exists (PName nm). split; [constructor; auto|].
    intros [|n] rest Hle [Hns _]; [simpl in Hle; lia|].
    cbn [read_obj app]. change (skip false (47%N :: v ++ rest)) with (47%N :: v ++ rest).
    cbn iota. rewrite take_regular_app, Hn by auto. reflexivity.
  - (* int *) exists (decZ z). split; [reflexivity|]. exists (PInt z). split; [constructor|].
    destruct (decZ_head z) as (c & r & E & Hc).
    intros [|n] rest Hle [Hns Hrt]; [rewrite E in Hle; simpl in Hle; lia|].
    rewrite read_obj_token; auto using decZ_regular.
    + rewrite read_int_decZ, Hrt. destruct (all_digits _); reflexivity.
    + eauto.
    + rewrite E. simpl. destruct Hc as [Hc|Hc]; [intros ->; discriminate|].
      intros ->. pose proof (read_int_decZ z) as Hz. rewrite E in Hz. discriminate.
  - (* real *) exists (fmt_g q). split; [reflexivity|]. simpl in Hw.
    destruct (fmt_g_plain q Hw) as (v & Hv & He).
    destruct (fmt_g_token q Hw) as (Hreg & c & r & E & Hc).
    assert (H47 : hd 0%N (fmt_g q) <> 47%N).
    { rewrite E. simpl. destruct Hc as [Hc|Hc]; [intros ->; discriminate|]. intros ->.
      rewrite E in Hv. unfold number_value, read_int, read_real in Hv. simpl unsign in Hv.
      cbv iota in Hv. replace (all_digits (47%N :: r)) with false in Hv by reflexivity.
      destruct (split_dot (47%N :: r)) as [[ip fp]|] eqn:Esd; [|discriminate].
      simpl in Esd. destruct (split_dot r) as [[ip' fp']|]; [|discriminate].
      injection Esd as <- <-. simpl in Hv. discriminate. }
    unfold number_value in Hv.
    destruct (read_int (fmt_g q)) as [z|] eqn:Ez.
    + injection Hv as Hv. exists (PInt z). split; [constructor; rewrite Hv; auto|].
      intros [|n] rest Hle [Hns Hrt]; [rewrite E in Hle; simpl in Hle; lia|].
      rewrite read_obj_token; eauto. rewrite Ez, Hrt. destruct (all_digits _); reflexivity.
    + exists (PReal v). split; [constructor; auto|].
      intros [|n] rest Hle [Hns Hrt]; [rewrite E in Hle; simpl in Hle; lia|].
      rewrite read_obj_token; eauto. rewrite Ez, Hv. reflexivity.
  - destruct Hw.
  - (* literal *) eexists. split; [reflexivity|]. exists (PStr v). split; [constructor|].
    intros [|n] rest Hle _; [simpl in Hle; lia|].
    cbn [read_obj app].     match goal with |- context [skip false (40%N :: ?x)] => change (skip false (40%N :: x)) with (40%N :: x) end.
    cbn iota. rewrite <- app_assoc. cbn [app]. rewrite read_lit_escape. reflexivity.
  - (* hex *) simpl in Hw. eexists. split; [reflexivity|]. exists (PStr v). split; [constructor|].
    intros [|n] rest Hle _; [simpl in Hle; lia|].
    cbn [read_obj app].
    match goal with |- context [skip false (60%N :: ?x)] => change (skip false (60%N :: x)) with (60%N :: x) end.
    cbn iota. rewrite <- app_assoc. cbn [app].
    pose proof (read_hex_hexlify v rest Hw) as Hh.
    assert (Hne : hd 0%N (hexlify v ++ 62%N :: rest) <> 60%N).
    { destruct v as [|b v]; [discriminate|]. cbn [hexlify flat_map app hd].
      inversion_clear Hw. unfold is_byte in H. assert (b / 16 < 16)%N as Hb by lia.
      unfold hexdigitL. destruct (N.ltb_spec (b / 16) 10); lia. }
    destruct (hexlify v ++ 62%N :: rest) as [|c r]; [discriminate|]. simpl in Hne.
    change (60 =? 47)%N with false. change (60 =? 40)%N with false. change (60 =? 60)%N with true.
    cbn [hd]. replace (c =? 60)%N with false by lia. rewrite Hh. reflexivity.
  - (* array *) apply wf_arr in Hw.
    destruct (read_arr_items l IH Hw) as (ws & Ews & _ & os & Hos & Hrd). cbn zeta in *.
    eexists. split; [rewrite write_arr_eq, Ews; reflexivity|].
    exists (PArr os). split; [constructor; auto|].
    intros [|n] rest Hle _; [simpl in Hle; lia|].
    cbn [length] in Hle. rewrite app_length in Hle. simpl in Hle.
    cbn [read_obj app].
    match goal with |- context [skip false (91%N :: ?x)] => change (skip false (91%N :: x)) with (91%N :: x) end.
    cbn iota. rewrite <- app_assoc. cbn [app].
    destruct (Hrd n rest) as [-> _]; [lia|]. reflexivity.
  - (* dict *) apply wf_dict in Hw.
    destruct (read_dict_entries l IH Hw) as (ws & Ews & os & Hos & Hrd).
    eexists. split; [rewrite write_dict_eq, Ews; reflexivity|].
    exists (PDict os). split; [constructor; auto|].
    intros [|n] rest Hle _; [simpl in Hle; lia|].
    unfold write_dict_chunks in *. fold (dict_body ws) in *.
    change (bs "<<") with [60%N; 60%N] in *. change (bs ">>") with [62%N; 62%N] in *.
    cbn [app length] in *. rewrite app_length in Hle. simpl in Hle.
    cbn [read_obj app].
    match goal with |- context [skip false (60%N :: ?x)] => change (skip false (60%N :: x)) with (60%N :: x) end.
    cbn iota. rewrite <- app_assoc. cbn [app].
    change (60 =? 47)%N with false. change (60 =? 40)%N with false. change (60 =? 60)%N with true.
    cbn [hd tl]. change (60 =? 60)%N with true. cbn iota.
    rewrite Hrd by lia. reflexivity.
  - destruct Hw.
  - (* ref *) eexists. split; [reflexivity|]. exists (PRef t 0). split; [constructor|].
    intros [|n] rest Hle [Hns _].
    { rewrite app_length in Hle. simpl in Hle. lia. }
    pose proof (dec_all_digits t) as Had. pose proof (dec_nonnil t) as Hnn.
    change (bs " 0 R") with [32; 48; 32; 82]%N. rewrite <- app_assoc. cbn [app].
    rewrite read_obj_token; [|apply digits_regular; auto|apply digits_not_nil; auto|reflexivity|].
    2: { pose proof (dec_digits t) as Hd. destruct (dec t); [congruence|]. inversion_clear Hd. simpl.
         intros ->. discriminate. }
    assert (Hri : read_int (dec t) = Some (Z.of_N t)).
    { pose proof (read_int_decZ (Z.of_N t)) as H. destruct t; exact H. }
    rewrite Hri, Had.
    assert (Hrt : read_ref_tail (32 :: 48 :: 32 :: 82 :: rest)%N = Some (0%N, rest)).
    { unfold read_ref_tail.
      change (skip false (32 :: 48 :: 32 :: 82 :: rest)%N) with (48 :: 32 :: 82 :: rest)%N.
      change (take_regular (48 :: 32 :: 82 :: rest)%N) with ([48%N], (32 :: 82 :: rest)%N).
      cbn iota. change (all_digits [48%N]) with true. cbn iota.
      change (skip false (32 :: 82 :: rest)%N) with (82%N :: rest).
      pose proof (take_regular_app [82%N] rest eq_refl Hns) as Htr. cbn [app] in Htr.
      rewrite Htr. reflexivity. }
    rewrite Hrt, dec_val. reflexivity.
Qed.
End RT.
