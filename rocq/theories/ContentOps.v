(** * ContentOps: the operators of the model, as a reader of the stream sees them. *)
From Coq Require Import QArith Qabs String.
From Verif Require Import Base Gfmt GfmtProofs Atoms PdfSpec AtomsProofs ContentSpec ContentProofs.
From Verif Require Import Num Fonts State Words Render.
Local Open Scope list_scope.
Open Scope nat_scope.

Section C.
Context {NUM : Num} {ENV : Env NUM}.

(** ** Specification *)
(** PDF 32000-1, table 51: the operators *)
Definition op_name (o : op) : bytes :=
  match o with
  | OBT => bs "BT" | OET => bs "ET" | OTd _ _ => bs "Td" | OTD _ _ => bs "TD" | OTstar => bs "T*"
  | OTL _ => bs "TL" | OTf _ _ => bs "Tf" | Org _ | OrgD _ => bs "rg" | ORG _ => bs "RG" | OTJ _ => bs "TJ"
  | Om _ _ => bs "m" | Ol _ _ => bs "l" | Oc _ _ _ _ _ _ => bs "c" | Ore _ _ _ _ => bs "re"
  | Ob => bs "b" | OB => bs "B" | Of => bs "f" | Os => bs "s" | OS => bs "S" | On => bs "n"
  end.
(** their number operands, in the order of the standard *)
Definition op_nums (o : op) : list num :=
  match o with
  | OTd x y | OTD x y | Om x y | Ol x y => [x; y]
  | OTL l => [l]
  | OTf _ z => [z]
  | Org c | OrgD c | ORG c => [red c; green c; blue c]
  | Oc x1 y1 x2 y2 x3 y3 => [x1; y1; x2; y2; x3; y3]
  | Ore x y w h => [x; y; w; h]
  | _ => []
  end.
Definition obj_num (o : pobj) : option Q :=
  match o with PInt z => Some (inject_Z z) | PReal v => Some v | _ => None end.
(** an operand with the value of [x], to six digits *)
Definition num_says (x : num) (o : pobj) : Prop :=
  exists q v, nto_Q x = Some q /\ obj_num o = Some v /\ near v q.
Definition tj_says (t : tj) (o : pobj) : Prop :=
  match t with TStr b => o = PStr b | TAdj a => num_says a o end.
(** [says R ops cs out]: [out] are the operators [ops]; text is encoded with the code tables
    [cs] (which grow with every text shown), [R] are the names of the fonts *)
Inductive says (R : list font) : list op -> cstate -> list instr -> cstate -> Prop :=
| says_nil cs : says R [] cs [] cs
| says_text l t cs cs' a ops out cs2 :
    items_tj l cs = (t, cs') -> Forall2 tj_says t a -> says R ops cs' out cs2 ->
    says R (OTJ l :: ops) cs ((bs "TJ", [PArr a]) :: out) cs2
| says_font f z p cs ops out cs2 :
    num_says z p -> says R ops cs out cs2 ->
    says R (OTf f z :: ops) cs ((bs "Tf", [PName (font_id R f); p]) :: out) cs2
| says_other o args cs ops out cs2 :
    (forall l, o <> OTJ l) -> (forall f z, o <> OTf f z) ->
    Forall2 num_says (op_nums o) args -> says R ops cs out cs2 ->
    says R (o :: ops) cs ((op_name o, args) :: out) cs2.

(** Numbers printed without exponent (see C04). *)
Definition plain (x : num) : Prop := exists q, nto_Q x = Some q /\ g_plain q = true.
(** the adjustments in a TJ array *)
Definition item_nums (i : titem) : list num :=
  match i with
  | ISlug s => map (fun p => nneg (snd p)) (sl_kern s)
  | ISpace t _ => if ntruthy (ts_kern t) then [nneg (ts_kern t)] else []
  end.
Definition op_plain (o : op) : Prop :=
  Forall plain (op_nums o) /\ match o with OTJ l => Forall plain (flat_map item_nums l) | _ => True end.

(** ** Proofs *)
Lemma kern_loop_adj b k w : forall prev a, In (TAdj a) (kern_loop b k w prev) -> In a (map (fun p => nneg (snd p)) k).
Proof.
  induction k as [|[i x] k IH]; intros prev a H; cbn in H.
  - destruct H as [H|[]]; discriminate.
  - destruct H as [H|[H|H]]; [discriminate|injection H as <-; left; reflexivity|right; eapply IH; exact H].
Qed.
Lemma encode_kerning_adj b k w a : In (TAdj a) (encode_kerning b k w) -> In a (map (fun p => nneg (snd p)) k).
Proof.
  unfold encode_kerning. destruct k as [|[[|i] x] k]; intros H.
  - destruct H as [H|[]]; discriminate.
  - destruct H as [H|H]; [injection H as <-; left; reflexivity|right; eapply kern_loop_adj; exact H].
  - eapply kern_loop_adj; exact H.
Qed.
Lemma item_tj_adj i cs a : In (TAdj a) (fst (item_tj i cs)) -> In a (item_nums i).
Proof.
  destruct i as [s|t st]; cbn [item_tj item_nums].
  - destruct (font_encode _ _ _) as [b cs']. apply encode_kerning_adj.
  - destruct (font_encode _ _ _) as [b cs']. cbn [fst]. destruct (ntruthy _); cbn; intros H.
    + destruct H as [H|[H|[]]]; [injection H as <-; auto|discriminate].
    + destruct H as [H|[]]; discriminate.
Qed.
Lemma items_tj_adj l : forall cs a, In (TAdj a) (fst (items_tj l cs)) -> In a (flat_map item_nums l).
Proof.
  induction l as [|i l IH]; intros cs a; cbn [items_tj flat_map]; [intros []|].
  pose proof (item_tj_adj i cs a) as H1. destruct (item_tj i cs) as [t1 c1]. specialize (IH c1 a).
  destruct (items_tj l c1) as [t2 c2]. cbn [fst] in *. intros H. apply in_or_app. apply in_app_or in H as [H|H]; auto.
Qed.
Definition tj_plain (t : tj) : Prop := match t with TStr _ => True | TAdj a => plain a end.
Lemma items_tj_plain l cs : Forall plain (flat_map item_nums l) -> Forall tj_plain (fst (items_tj l cs)).
Proof.
  intros H. apply Forall_forall. intros [b|a] I; [exact Logic.I|]. rewrite Forall_forall in H. apply H. eapply items_tj_adj; exact I.
Qed.
Lemma tj_wf t : tj_plain t -> wf_atom (tj_atom t).
Proof. destruct t as [b|a]; cbn; [auto|]. intros (q & -> & P). exact P. Qed.
Lemma tj_denotes t o : tj_plain t -> denotes (tj_atom t) o -> tj_says t o.
Proof.
  destruct t as [b|a]; cbn; intros P D.
  - inversion D; reflexivity.
  - destruct P as (q & E & P). rewrite E in D. unfold num_says. inversion D as [| |q' z V E1 E2|q' r V E1 E2| | | | |]; subst.
    + exists q, (inject_Z z). split; [exact E|]. split; [reflexivity|]. unfold near. rewrite V. apply near_g.
    + exists q, r. split; [exact E|]. split; [reflexivity|]. unfold near. rewrite V. apply near_g.
Qed.

Lemma font_id_legal R f : forallb is_regular (font_id R f) = true /\ decode_name (font_id R f) = Some (font_id R f).
Proof.
  unfold font_id. destruct (f_face f) as [b|]; [destruct b, (f_bold f), (f_italic f); split; reflexivity|].
  destruct (index_of _ _) as [i|]; [|split; reflexivity].
  pose proof (dec_all_digits (N.of_nat i)) as D. change (bs "F") with [70%N]. cbn [app].
  split.
  - cbn [forallb]. rewrite (digits_regular _ D). reflexivity.
  - cbn [decode_name]. change (70 =? 35)%N with false. cbn iota.
    assert (H : forall t, all_digits t = true -> decode_name t = Some t).
    { induction t as [|c t IH]; [reflexivity|]. cbn. intros H. apply andb_true_iff in H as [H1 H2].
      replace (c =? 35)%N with false by (unfold is_digit in H1; symmetry; apply N.eqb_neq; lia). rewrite IH by exact H2. reflexivity. }
    rewrite H by exact D. reflexivity.
Qed.

Lemma reads_nums l : Forall plain l -> exists args, Forall2 num_says l args /\
  forall rest st out, reads rest (st ++ args) out -> reads (nums l ++ rest) st out.
Proof.
  induction l as [|x l IH]; intros P; cbn [nums flat_map app].
  - exists []. split; [constructor|]. intros rest st out H. rewrite app_nil_r in H. exact H.
  - inversion P as [|? ? P1 P2]; subst. destruct (IH P2) as (args & A & R). destruct P1 as (q & E & G).
    destruct (reads_num q G) as (v & V & RV). exists (PReal v :: args). split.
    + constructor; [|exact A]. exists q, v. split; [exact E|]. split; [reflexivity|]. unfold near. rewrite V. apply near_g.
    + intros rest st out H. unfold fmt_num. rewrite E. rewrite <- !app_assoc. unfold sp at 1. cbn [app].
      apply RV; [reflexivity|]. apply reads_ws; [reflexivity|]. apply R. rewrite <- app_assoc. exact H.
Qed.

Lemma reads_name v rest st out : forallb is_regular v = true -> decode_name v = Some v -> nonreg_start rest ->
  reads rest (st ++ [PName v]) out -> reads (bs "/" ++ v ++ rest) st out.
Proof.
  intros L1 L2 NR H. rewrite app_assoc. eapply (reads_obj _ (PName v)); [reflexivity|discriminate| |exact H].
  change (bs "/" ++ v) with (47%N :: v). intros [|n] L; [cbn [List.length] in L; lia|]. cbn [app read_obj].
  change (skip false (47%N :: v ++ rest)) with (47%N :: v ++ rest).
  cbn iota. rewrite take_regular_app by assumption. rewrite L2. reflexivity.
Qed.
(** one operator *)
Definition step (R : list font) (o : op) (cs : cstate) (i : instr) (cs' : cstate) : Prop :=
  forall ops out cs2, says R ops cs' out cs2 -> says R (o :: ops) cs (i :: out) cs2.
Definition read_step (b : bytes) (i : instr) : Prop := forall rest out, reads rest [] out -> reads (b ++ rest) [] (i :: out).
Lemma read_op l t (e : N) c r args : t = c :: r -> forallb is_regular t = true -> num_start c = false -> is_ws e = true ->
  (forall rest st out, reads rest (st ++ args) out -> reads (nums l ++ rest) st out) ->
  read_step (nums l ++ t ++ [e]) (t, args).
Proof.
  intros T RG NS W H rest out RR. rewrite <- app_assoc. apply H. cbn [app]. rewrite <- app_assoc. cbn [app].
  eapply reads_word; try eassumption.
  - cbn. unfold is_regular. rewrite W. reflexivity.
  - apply reads_ws; assumption.
Qed.
Lemma read_op1 R o cs b cs' : op_plain o -> op_bytes R o cs = Ok (b, cs') ->
  exists i, step R o cs i cs' /\ read_step b i.
Proof.
  intros [P PT] E.
  destruct (reads_nums (op_nums o) P) as (args & A & RA).
  assert (OTHER : forall t (e : N), op_name o = t -> (exists c r, t = c :: r /\ forallb is_regular t = true /\ num_start c = false) ->
    is_ws e = true -> (forall l, o <> OTJ l) -> (forall f z, o <> OTf f z) -> b = nums (op_nums o) ++ t ++ [e] -> cs' = cs ->
    exists i, step R o cs i cs' /\ read_step b i).
  { intros t e T (c & r & TC & RG & NS) W N1 N2 EB EC. subst b cs'. exists (op_name o, args). split.
    - intros ops out cs2 S. apply says_other; assumption.
    - rewrite T. eapply read_op; eassumption. }
  destruct o; cbn [op_bytes] in E;
    try (apply Ok_inj in E; apply pair_equal_spec in E as [<- <-]; eapply (OTHER _ 10%N);
         [reflexivity|do 2 eexists; split; [reflexivity|]; split; reflexivity|reflexivity|discriminate|discriminate
         |unfold line_end; cbn [op_nums nums flat_map app]; rewrite <- ?app_assoc; reflexivity|reflexivity]);
    try (apply Ok_inj in E; apply pair_equal_spec in E as [<- <-]; eapply (OTHER _ 32%N);
         [reflexivity|do 2 eexists; split; [reflexivity|]; split; reflexivity|reflexivity|discriminate|discriminate
         |unfold line_end; cbn [op_nums nums flat_map app]; rewrite <- ?app_assoc; reflexivity|reflexivity]).
  - (* Tf *) apply Ok_inj in E. apply pair_equal_spec in E as [<- <-]. clear OTHER. inversion A as [|? p ? ? Z A']; subst. inversion A'; subst.
    exists (bs "Tf", [PName (font_id R f); p]). split.
    + intros ops out cs2 S. apply says_font; assumption.
    + intros rest out RR. destruct (font_id_legal R f) as [L1 L2]. rewrite <- !app_assoc.
      apply reads_name; [exact L1|exact L2|reflexivity|]. unfold sp at 1. cbn [app].
      apply reads_ws; [reflexivity|]. apply RA. cbn [app]. unfold line_end. rewrite <- app_assoc.
      eapply reads_word; [reflexivity|reflexivity|reflexivity|reflexivity|]. apply reads_ws; [reflexivity|exact RR].
  - (* TJ *) destruct (items_tj items cs) as [t c] eqn:I. apply bind_ok in E as (b' & E & E2). apply Ok_inj in E2. apply pair_equal_spec in E2 as [-> ->].
    pose proof (items_tj_plain items cs PT) as TP. rewrite I in TP. cbn [fst] in TP.
    unfold tj_bytes in E. apply bind_ok in E as (w & EW & E). apply Ok_inj in E. subst b.
    assert (WF : wf_atom (AArr (map tj_atom t))).
    { apply wf_arr, Forall_forall. intros a J. apply in_map_iff in J as (x & <- & J). apply tj_wf. rewrite Forall_forall in TP. auto. }
    destruct (atom_round_trip (fun b => b) _ WF) as (w' & EW' & o & D & RO). rewrite EW in EW'. apply Ok_inj in EW'. subst w'.
    inversion D as [| | | | | |l l' D2| |]; subst l o.
    exists (bs "TJ", [PArr l']). split.
    + intros ops out cs2 S. eapply says_text; [exact I| |exact S].
      clear - D2 TP. remember (map tj_atom t) as m eqn:M. revert t M TP. induction D2 as [|a o m l' Da _ IH]; intros [|x t] M TP; try discriminate; [constructor|].
      injection M as -> ->. inversion TP; subst. constructor; [apply tj_denotes; assumption|]. apply IH; auto.
    + intros rest out RR. rewrite <- !app_assoc. cbn [app].
      rewrite write_arr_eq in EW. apply bind_ok in EW as (ws & _ & EW). apply Ok_inj in EW.
      eapply (reads_obj _ (PArr l')).
      * subst w. reflexivity.
      * subst w. discriminate.
      * intros n L. apply RO; [exact L|]. split; [reflexivity|]. reflexivity.
      * change (bs " TJ") with (32%N :: bs "TJ"). cbn [app]. apply reads_ws; [reflexivity|].
        change (84%N :: 74%N :: 10%N :: rest) with (bs "TJ" ++ 10%N :: rest).
        eapply reads_word; [reflexivity|reflexivity|reflexivity|reflexivity|]. apply reads_ws; [reflexivity|exact RR].
Qed.
Lemma content_reads R ops : forall cs chunks cs', Forall op_plain ops -> ops_bytes R ops cs = Ok (chunks, cs') ->
  exists out, says R ops cs out cs' /\ reads (concat chunks) [] out.
Proof.
  induction ops as [|o ops IH]; intros cs chunks cs' P E; cbn [ops_bytes] in E.
  - apply Ok_inj in E. injection E as <- <-. exists []. split; [constructor|apply reads_nil].
  - inversion P as [|? ? P1 P2]; subst. apply bind_ok in E as ((b & c1) & E1 & E). apply bind_ok in E as ((l & c2) & E2 & E).
    cbn [fst snd] in *. apply Ok_inj in E. injection E as <- <-.
    destruct (read_op1 R o cs b c1 P1 E1) as (i & S & RS). destruct (IH _ _ _ P2 E2) as (out & SO & RO).
    exists (i :: out). split; [apply S, SO|]. cbn [concat]. apply RS, RO.
Qed.
End C.
