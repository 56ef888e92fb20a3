(** * Properties C49 to C54 and C71: columns and pages.
    Specifications: LayoutSpec ([adds], [shows_text], ...), TextSpec ([lines_of]),
    LineSpec ([conserves]), RenderSpec ([view]: what a reader shows). *)
From Coq Require Import QArith Qcanon Lqa String.
From Verif Require Import Base Gfmt Num Fonts State Style TextSpec StateProofs Words WordsSpec WordProofs WordOps
  Parse Render RenderSpec RenderProofs Firstfit LineSpec FirstfitProofs WordWidth FirstfitWidth KnuthPlass Optimum
  Show Common Draw DrawSpec TextBlock TextPos Layout LayoutSpec LayoutProofs LayoutText LayoutPages LayoutRoom LayoutStyle
  Properties_Style Properties_Words Properties_Text Properties_Firstfit Properties_KnuthPlass Properties_Optimum.
Local Open Scope list_scope.
Open Scope nat_scope.

(** ** C49.  Pages [doc], each with columns to fill; the first columns were filled:
    [filled].  The pages are completed and continued such that page k, completed or
    not, keeps its template and the columns it had finished before, followed by its
    other columns in order, each one replaced by the filled one of the same number, if
    there is one.  Completed pages have nothing left to fill; the next column to fill is
    the last one filled, then come the others, in order. *)
Theorem C49_fill_pages : forall (NUM : Num) (filled : list colfill) (doc : nat -> pagefill),
  filled <> [] -> (forall k, pf_todo (doc k) <> []) ->
  exists completed doc', fill_into filled doc = Ok (completed, doc')
    /\ (forall k, let p := sapp completed doc' k in
         pf_base p = pf_base (doc k)
         /\ pf_done p ++ pf_todo p
            = pf_done (doc k) ++ map (fun i => nth i filled (flat_todo doc i))
                                     (seq (off doc k) (List.length (pf_todo (doc k)))))
    /\ Forall (fun p => pf_todo p = []) completed
    /\ (forall j, flat_todo doc' j
                  = nth (List.length filled - 1 + j) filled (flat_todo doc (List.length filled - 1 + j)))
    /\ (forall k, pf_todo (doc' k) <> []).
Proof.
  intros NUM filled doc NE O. unfold fill_into. destruct filled as [|c f]; [congruence|].
  destruct (fill_loop_spec (S (List.length (c :: f))) (c :: f) doc ltac:(lia) NE O) as (comp & doc' & E & P & D & F & O').
  exists comp, doc'. split; [exact E|]. split; [exact P|]. split; [exact D|]. split; [exact F|exact O'].
Qed.
Print Assumptions C49_fill_pages.
(** [flat_todo] is what it is meant to be: the columns to fill, page by page. *)
Theorem C49_columns_in_order : forall (NUM : Num) (doc : nat -> pagefill), (forall k, pf_todo (doc k) <> []) ->
  forall n, flat_map (fun k => pf_todo (doc k)) (seq 0 n) = map (flat_todo doc) (seq 0 (off doc n)).
Proof.
  intros NUM doc O n. induction n as [|n IH]; [reflexivity|].
  rewrite flat_map_seq_S, IH, off_last, seq_app, map_app. f_equal. symmetry. apply (todo_as_flat doc n O).
Qed.
Print Assumptions C49_columns_in_order.

#[local] Existing Instance ex_words.
Definition ex_column (x y h : Z) : @column QcNum := @mkColumn QcNum (mkXY (nZ x) (nZ y)) (nZ 60) (nZ h).
Definition ex_template (n : Z) : @page QcNum (@drawing QcNum) :=
  mkPage [] (mkXY (nZ 200) (nZ 100)) 0%Z
         (if Z.even n then [ex_column 10 20 40; ex_column 100 20 40] else [ex_column 10 20 32]).
Definition ex_doc (i : nat) : @pagefill QcNum := pf_new (ex_template (1 + Z.of_nat i)%Z).
Definition ex_rule : @shaped QcNum := SRule (mkXY n0 n0) (mkXY n0 n0) (mkRGB n0 n0 n0) (nZ 10).
Example C49_example :
  (forall k, pf_todo (ex_doc k) <> [])
  /\ let filled := [cf_add (flat_todo ex_doc 0) ex_rule; cf_add (flat_todo ex_doc 1) ex_rule] in
     filled <> [] /\ rmap (fun x => List.length (fst x)) (fill_into filled ex_doc) = Ok 1
     /\ off ex_doc 3 = 4.
Proof.
  split.
  - intros k. unfold ex_doc, ex_template. cbn [pf_new pf_todo pg_columns]. destruct (Z.even _); discriminate.
  - cbn zeta. split; [discriminate|]. split; vm_compute; reflexivity.
Qed.

(** ** C50.  A paragraph yields the first columns it was given, at least one, in order;
    each one has the same box, and its blocks followed by those of the paragraph. *)
Theorem C50_paragraph_adds : forall (NUM : Num) (ENV : Env NUM) fuel p base cs out,
  para_columns fuel p base cs = Ok out ->
  out <> []
  /\ forall i c, nth_error out i = Some c ->
     cf_box c = cf_box (cs i) /\ exists new, cf_blocks c = cf_blocks (cs i) ++ new
       /\ Forall (fun b => exists ls lead a h, snd b = SText ls lead a h) new.
Proof.
  intros NUM ENV fuel p base cs out E. unfold para_columns in E.
  apply para_loop_run in E as (added & cks & NE & A & _ & CO). split.
  { intros ->. apply adds_length in A. destruct added; [congruence|discriminate]. }
  intros i c N. rewrite A in N. rewrite nth_error_map in N. destruct (nth_error (seq 0 _) i) as [j|] eqn:NJ; [|discriminate].
  assert (i < List.length added). { rewrite <- (seq_length (List.length added) 0). apply nth_error_Some. congruence. }
  apply nth_error_nth with (d := 0) in NJ. rewrite seq_nth in NJ by assumption. cbn in NJ. subst j. injection N as <-.
  destruct (fold_add (cs i) (nth i added [])) as (B & S & l & L). split; [exact B|]. exists l. split; [exact L|].
  assert (X : map snd l = nth i added []).
  { unfold col_shapes in S. rewrite L, map_app in S. eapply app_inv_head, S. }
  apply Forall_forall. intros b I. assert (J : In (snd b) (nth i added [])) by (rewrite <- X; apply in_map, I).
  assert (J2 : In (snd b) (concat added)).
  { apply in_concat. exists (nth i added []). split; [apply nth_In; assumption|exact J]. }
  rewrite CO in J2. apply in_map_iff in J2 as (ls & <- & _). unfold chunk. eauto.
Qed.
Print Assumptions C50_paragraph_adds.
Definition par (content : list (@item QcNum)) (optimal : bool) : @para QcNum :=
  @mkPara QcNum content style_empty ALeft 0%Qc true (if optimal then Some (1%Qc, ex_params) else None).
Definition long_text : list (@item QcNum) :=
  [IStr (str_of "one two three four five six" ++ nl ++ str_of "seven eight nine ten eleven twelve thirteen fourteen")].
Example C50_example :
  rmap (map (fun c => List.length (cf_blocks c))) (para_columns 100 (par long_text false) full_default (flat_todo ex_doc))
  = Ok [1; 2; 1; 1; 1].
Proof. vm_compute. reflexivity. Qed.

(** ** C51.  A rule that fits obeys the contract of C50, is drawn inside the column, and
    keeps its margins (margins and room not negative). *)
Theorem C51_rule_partial : forall (c : @rgb QcNum) (m : @sides QcNum) (cs : nat -> @colfill QcNum),
  let col := cs 0 in
  (0 <= s_top m)%Qc -> (0 <= s_bottom m)%Qc -> (0 <= s_left m)%Qc -> (0 <= s_right m)%Qc ->
  (s_top m + s_bottom m <= cf_free col)%Qc -> (s_left m + s_right m <= c_width (cf_box col))%Qc ->
  (cf_free col <= c_height (cf_box col))%Qc ->
  exists from to, rule_columns c m cs = [cf_add col (SRule from to c (s_top m + s_bottom m)%Qc)]
    /\ (0 <= cf_free (cf_add col (SRule from to c (s_top m + s_bottom m)%Qc)))%Qc
    /\ py from = py to
    /\ (px (c_origin (cf_box col)) <= px from <= px to)%Qc
    /\ (px to <= px (c_origin (cf_box col)) + c_width (cf_box col))%Qc
    /\ (py (c_origin (cf_box col)) <= py from)%Qc
    /\ (py from <= py (c_origin (cf_box col)) + c_height (cf_box col))%Qc
    (* its margins: left, right, to the content above it, and to what comes below *)
    /\ (px from - px (c_origin (cf_box col)) = s_left m)%Qc
    /\ (px (c_origin (cf_box col)) + c_width (cf_box col) - px to = s_right m)%Qc
    /\ (py (c_origin (cf_box col)) + cf_free col - py from = s_top m)%Qc
    /\ (py from - (py (c_origin (cf_box col))
          + cf_free (cf_add col (SRule from to c (s_top m + s_bottom m)%Qc))) = s_bottom m)%Qc.
Proof.
  intros c m cs col T B L R F W H. unfold rule_columns. fold col.
  assert (E : nltb (cf_free col) (nadd (s_top m) (s_bottom m)) = false).
  { destruct (nltb (cf_free col) (nadd (s_top m) (s_bottom m))) eqn:X; [|reflexivity]. apply Qcltb_lt in X.
    exfalso. exact (Qclt_not_le _ _ X F). }
  rewrite E. cbn [app]. eexists (mkXY _ _), (mkXY _ _). split; [reflexivity|]. cbn [px py].
  destruct col as [[o w h] bl fr]. destruct o as [ox oy]. destruct m as [mt mr mb ml].
  cbn [cf_box cf_free c_origin c_width c_height s_top s_bottom s_left s_right px py cf_add sh_height] in *.
  cbn in *. clear E. repeat split; try reflexivity; qc.
Qed.
Print Assumptions C51_rule_partial.
(** If it does not fit, the column it does not fit in is yielded twice, the second time
    with the rule added to it, below the box; the next column is not used. *)
Theorem C51_rule_refuted : forall (c : @rgb QcNum) (m : @sides QcNum) (cs : nat -> @colfill QcNum),
  (cf_free (cs 0%nat) < s_top m + s_bottom m)%Qc ->
  exists s, rule_columns c m cs = [cs 0%nat; cf_add (cs 0%nat) s]
    /\ (cf_free (cf_add (cs 0%nat) s) < 0)%Qc.
Proof.
  intros c m cs F. unfold rule_columns. apply Qcltb_lt in F.
  change (nltb (cf_free (cs 0)) (nadd (s_top m) (s_bottom m))) with (Qcltb (cf_free (cs 0)) (s_top m + s_bottom m)%Qc).
  rewrite F. cbn [app]. eexists. split; [reflexivity|]. cbn [cf_add cf_free sh_height]. apply Qcltb_lt in F.
  cbn. qc.
Qed.
Print Assumptions C51_rule_refuted.
(** On pages: a paragraph before the rule is shown twice. *)
Definition margin10 : @sides QcNum := mkSides (nZ 10) n0 (nZ 10) n0.
Definition black : @rgb QcNum := mkRGB n0 n0 n0.
Definition two_blocks : list (@block QcNum) := [BPara (par [IStr (str_of "one two three")] false); BRule black margin10].
Example C51_twice :
  rmap (flat_map (fun p => map line_text (flat_map shape_lines (page_shapes p))))
       (auto_pages 100 two_blocks ex_template full_default 1)
  = Ok (map str_of ["one two"; "three"; "one two"; "three"]%string).
Proof. vm_compute. reflexivity. Qed.
(** And the rest of a column with such a rule is negative: of a following paragraph with
    optimal line breaks, all lines but the first are lost (C46). *)
Theorem C51_text_lost_refuted : exists (ENV : Env QcNum) (template : Z -> page (@drawing QcNum)) (base : @full QcNum) (p1 p2 : @para QcNum),
  all_split /\ (forall n, pg_columns (template n) <> [] /\ Forall (fun c => Q2Qc 30 <= c_height c)%Qc (pg_columns (template n)))
  /\ p_content p1 = [IStr (str_of "one two three")] /\ p_content p2 = [IStr (str_of "four five six seven eight nine")]
  /\ let shown blocks := rmap (flat_map (fun p => map line_text (flat_map shape_lines (page_shapes p)))) (auto_pages 100 blocks template base 1) in
     shown [BPara p1; BPara p2] = Ok (map str_of ["one two"; "three"; "four five"; "six seven"; "eight nine"]%string)
     /\ shown [BPara p1; BRule black margin10; BPara p2] = Ok (map str_of ["one two"; "three"; "one two"; "three"; "four five"]%string).
Proof.
  exists ex_words, ex_template, full_default, (par [IStr (str_of "one two three")] false), (par [IStr (str_of "four five six seven eight nine")] true).
  split; [apply ex_splits|]. split; [intros n; unfold ex_template; cbn [pg_columns]; destruct (Z.even n); split; try discriminate; repeat constructor; vm_compute; discriminate|].
  split; [reflexivity|]. split; [reflexivity|]. split; vm_compute; reflexivity.
Qed.
Print Assumptions C51_text_lost_refuted.
Example C51_example :
  let cs := flat_todo ex_doc in
  (0 <= s_top margin10)%Qc /\ (s_top margin10 + s_bottom margin10 <= cf_free (cs O))%Qc
  /\ (cf_free (cf_add (cs O) (SRule (mkXY n0 n0) (mkXY n0 n0) black (Q2Qc 20))) < s_top margin10 + s_bottom margin10)%Qc.
Proof. repeat split; vm_compute; congruence. Qed.

(** ** C52.  Blocks are stacked from the top of what is left of the column: the k-th new
    one starts where the one before ends. *)
Definition heights (ss : list (@shaped QcNum)) : Qc := fold_right (fun s a => sh_height s + a)%Qc 0%Qc ss.
Theorem C52_stacked : forall (c : @colfill QcNum) (ss : list shaped),
  let o := c_origin (cf_box c) in
  let c' := fold_left cf_add ss c in
  cf_blocks c' = cf_blocks c ++
     map (fun k => (mkXY (px o) (py o + cf_free c - heights (firstn k ss))%Qc, nth k ss ex_rule)) (seq 0 (List.length ss))
  /\ cf_free c' = (cf_free c - heights ss)%Qc /\ cf_box c' = cf_box c.
Proof.
  intros c ss. revert c. induction ss as [|s ss IH]; intros c; cbn [fold_left].
  - cbn. split; [symmetry; apply app_nil_r|]. split; [|reflexivity]. qc.
  - cbn zeta in IH. destruct (IH (cf_add c s)) as (B & F & X). rewrite B, F, X. cbn [cf_add cf_box cf_blocks cf_free].
    split; [|split; [|reflexivity]].
    + rewrite <- app_assoc. f_equal. cbn [List.length seq map app firstn]. f_equal.
      * cbn [nth]. f_equal. unfold cf_cursor, add_y. destruct (c_origin (cf_box c)). f_equal. cbn. qc.
      * rewrite <- seq_shift, map_map. apply map_ext. intros k. cbn [nth firstn heights fold_right]. f_equal. f_equal.
        unfold heights. cbn. qc.
    + cbn [heights fold_right]. cbn. unfold heights. qc.
Qed.
Print Assumptions C52_stacked.
(** On the pages of paragraphs: every column is the one of the template, with its
    blocks stacked from its top. *)
Definition stacked (c : @colfill QcNum) : Prop :=
  let o := c_origin (cf_box c) in
  let ss := col_shapes c in
  map fst (cf_blocks c) = map (fun k => mkXY (px o) (py o + c_height (cf_box c) - heights (firstn k ss))%Qc) (seq 0 (List.length ss))
  /\ cf_free c = (c_height (cf_box c) - heights ss)%Qc.
Lemma stacked_new c : stacked (cf_new c).
Proof. split; [reflexivity|]. cbn. qc. Qed.
Lemma heights_app a b : heights (a ++ b) = (heights a + heights b)%Qc.
Proof. unfold heights. induction a as [|x a IH]; cbn [app fold_right]; [|rewrite IH]; qc. Qed.
Lemma stacked_add ss : forall c, stacked c -> stacked (fold_left cf_add ss c).
Proof.
  induction ss as [|s ss IH]; intros c H; [exact H|]. cbn [fold_left]. apply IH.
  destruct H as [H1 H2]. unfold stacked, col_shapes in *. cbn [cf_add cf_box cf_blocks cf_free]. split.
  - rewrite !map_app, H1, app_length. cbn [List.length map]. rewrite seq_app, map_app. cbn [seq map plus].
    f_equal.
    + rewrite map_length. apply map_ext_in. intros k I. apply in_seq in I. rewrite firstn_app.
      replace (k - List.length (map snd (cf_blocks c))) with 0 by (rewrite map_length; lia). cbn [firstn]. rewrite app_nil_r. reflexivity.
    + unfold cf_cursor, add_y. destruct (c_origin (cf_box c)) as [x y] eqn:O. cbn [fst px py]. f_equal. f_equal. 
      rewrite firstn_app, Nat.sub_diag, firstn_all. cbn [firstn]. rewrite app_nil_r, H2. cbn. qc.
  - rewrite map_app, heights_app, H2. cbn. qc.
Qed.
Theorem C52_on_pages : forall (ENV : Env QcNum) fuel ps template base pnum pages,
  (forall n, pg_columns (template n) <> []) ->
  auto_pages fuel (map (@BPara QcNum) ps) template base pnum = Ok pages ->
  Forall (fun p => Forall stacked (snd p)) pages.
Proof.
  intros ENV fuel ps template base pnum pages T E.
  eapply (auto_pages_spec (fun cs => forall i, stacked (cs i)) stacked) in E as (_ & P & _); auto.
  - apply Forall_forall. intros p I. apply In_nth_error in I as (k & N). apply (P k p N).
  - intros cs cs' H J i. rewrite <- H. apply J.
  - apply Forall_forall. intros b I. apply in_map_iff in I as (p & <- & _). intros cs out J O.
    cbn [block_columns] in O. pose proof (para_only_adds _ _ _ _ _ O) as A. split; [exact A|]. destruct A as (_ & added & A'). unfold adds in A'. clear O. subst out.
    assert (S : forall i, stacked (fold_left cf_add (nth i added []) (cs i))) by (intros; apply stacked_add, J).
    split.
    + apply Forall_forall. intros c I2. apply in_map_iff in I2 as (i & <- & _). apply S.
    + intros j. unfold next_cols. set (i := _ + j). destruct (nth_in_or_default i (map (fun i => fold_left cf_add (nth i added []) (cs i)) (seq 0 (List.length added))) (cs i)) as [I2| ->]; [|apply J].
      apply in_map_iff in I2 as (i' & <- & _). apply S.
  - apply (flat_new template pnum stacked T). intros. apply stacked_new.
  - intros. apply stacked_new.
Qed.
Print Assumptions C52_on_pages.
Example C52_example :
  is_ok (auto_pages 100 [BPara (par long_text false); BPara (par long_text true)] ex_template full_default 1) = true
  /\ (forall n, pg_columns (ex_template n) <> []).
Proof. split; [vm_compute; reflexivity|]. intros n. unfold ex_template. cbn [pg_columns]. destruct (Z.even n); discriminate. Qed.

(** ** C53.  The pages made from paragraphs: at least one; page k is made from the
    template for its number, with all columns of the template; and the shapes on all
    pages, in order, are those of the first paragraph, then those of the second, ... *)
Theorem C53_pages : forall (NUM : Num) (ENV : Env NUM) fuel ps template base pnum pages,
  (forall n, pg_columns (template n) <> []) ->
  auto_pages fuel (map (@BPara NUM) ps) template base pnum = Ok pages ->
  pages <> []
  /\ (forall k p, nth_error pages k = Some p ->
       fst p = template (pnum + Z.of_nat k)%Z /\ map cf_box (snd p) = pg_columns (fst p))
  /\ exists pieces, flat_map page_shapes pages = concat pieces
     /\ Forall2 (fun p piece => exists cs added out,
           para_columns fuel p base cs = Ok out /\ added <> [] /\ adds cs added out /\ piece = concat added)
         ps pieces.
Proof.
  intros NUM ENV fuel ps template base pnum pages T E.
  eapply (auto_pages_spec (fun _ => True) (fun _ => True)) in E as (NE & P & pieces & F & S); auto.
  - split; [exact NE|]. split; [intros k p N; destruct (P k p N) as (A & B & _); auto|].
    exists pieces. split; [exact S|]. clear -F. remember (map (@BPara NUM) ps) as bs eqn:E. revert ps E.
    induction F as [|b s bs pieces H F IH]; intros [|p ps] E; try discriminate; constructor.
    + injection E as -> _. destruct H as (cs & added & out & _ & H). exists cs, added, out. exact H.
    + injection E as _ E. auto.
  - intros cs cs' _ _. exact I.
  - apply Forall_forall. intros b I. apply in_map_iff in I as (p & <- & _). apply para_adding.
Qed.
Print Assumptions C53_pages.
Lemma adds_unique {NUM : Num} cs added added' (out : list colfill) : adds cs added out -> adds cs added' out -> added = added'.
Proof.
  revert cs added' out. induction added as [|x added IH]; intros cs [|y added'] out A B.
  - reflexivity.
  - apply adds_length in A, B. rewrite A in B. discriminate.
  - apply adds_length in A, B. rewrite A in B. discriminate.
  - apply adds_cons in A as (o & r & -> & EO & A). apply adds_cons in B as (o' & r' & ER & EO' & B).
    injection ER as <- <-. f_equal; [|eapply IH; eauto].
    destruct (fold_add (cs 0) x) as (_ & S & _). destruct (fold_add (cs 0) y) as (_ & S' & _).
    rewrite <- EO in S. rewrite <- EO' in S'. rewrite S in S'. apply app_inv_head in S'. exact S'.
Qed.
Lemma Forall2_rows {A B C} (R : A -> B -> Prop) (Q : A -> C -> Prop) (f : C -> B) l : forall m,
  (forall a b, In a l -> R a b -> exists c, Q a c /\ b = f c) -> Forall2 R l m ->
  exists cs, Forall2 Q l cs /\ m = map f cs.
Proof.
  induction l as [|a l IH]; intros m H F; inversion F as [|? b ? m' H1 H2]; subst.
  - exists []. split; [constructor|reflexivity].
  - destruct (H a b (or_introl eq_refl) H1) as (c & Q1 & ->).
    destruct (IH m') as (cs & Q2 & ->); auto; [intros; apply H; auto; right; assumption|]. exists (c :: cs). split; [constructor; auto|reflexivity].
Qed.

(** The text, first-fit: the lines on all pages, in order, are those made of the first
    line of the first paragraph, and so on; nothing is lost, repeated or reordered, and
    every character was measured in the style of its span ([conserves]).
    (No string is empty or begins with a line break, see C55.) *)
Theorem C53_text_firstfit : forall (NUM : Num) (ENV : Env NUM) fuel ps template base pnum pages,
  exact_eq NUM -> all_split -> (forall n, pg_columns (template n) <> []) ->
  Forall (fun p => p_optimal p = None /\
    Forall (fun x => begins_text (fst x)) (span_strings base (ISpan (p_style p) (p_content p)))) ps ->
  auto_pages fuel (map (@BPara NUM) ps) template base pnum = Ok pages ->
  exists rows, Forall2 (fun p prow => Forall2 conserves prow (para_lines base p)) ps rows
   /\ map (fun l => measured_all (tl_words l)) (flat_map shape_lines (flat_map page_shapes pages))
      = concat (map (@concat (list schar)) rows).
Proof.
  intros NUM ENV fuel ps template base pnum pages EX HY T B E.
  destruct (C53_pages _ _ _ _ _ _ _ _ T E) as (_ & _ & pieces & S & F).
  assert (X : exists rows, Forall2 (fun p prow => Forall2 conserves prow (para_lines base p)) ps rows
     /\ map (fun s => para_shape_lines s) pieces = map (@concat (list schar)) rows).
  { eapply Forall2_rows with (R := fun p sl => exists cs added out,
       para_columns fuel p base cs = Ok out /\ added <> [] /\ adds cs added out /\ sl = para_shape_lines (concat added)).
    - intros p sl I (cs & added & out & P & _ & A & ->). rewrite Forall_forall in B. destruct (B p I) as (N & BT).
      destruct (para_ff fuel base p cs out EX HY BT N P) as (added' & rows & _ & A' & C & R & _).
      rewrite (adds_unique _ _ _ _ A A'). exists rows. auto.
    - clear -F. induction F as [|p s ps pieces H F IH]; cbn [map]; constructor; auto.
      destruct H as (cs & added & out & P & NE & A & ->). exists cs, added, out. auto. }
  destruct X as (rows & R & M). exists rows. split; [exact R|]. rewrite S, <- M. clear.
  induction pieces as [|s pieces IH]; [reflexivity|]. cbn [concat map]. rewrite flat_map_app, map_app, IH. reflexivity.
Qed.
Print Assumptions C53_text_firstfit.
(** The text, both algorithms, in exact arithmetic: the columns are at least as high as
    a line of any of the paragraphs. *)
Definition room_for (h : Qc) (template : Z -> page (@drawing QcNum)) : Prop :=
  forall n, pg_columns (template n) <> [] /\ Forall (fun c => h <= c_height c)%Qc (pg_columns (template n)).
Definition fits_lines (h : Qc) (base : @full QcNum) (p : @para QcNum) : Prop :=
  (0 < para_lead base p)%Qc /\ (para_lead base p <= h)%Qc.
Lemma pages_roomy : forall (ENV : Env QcNum) fuel ps template base pnum pages (h : Qc),
  all_split -> (0 <= h)%Qc -> room_for h template -> Forall (fun p => fits_lines h base p /\ para_begins base p) ps ->
  auto_pages fuel (map (@BPara QcNum) ps) template base pnum = Ok pages ->
  Forall (fun p => Forall (roomy h) (snd p)) pages
  /\ exists pieces, Forall2 (gives_shapes (roomy_from h) fuel base) (map (@BPara QcNum) ps) pieces
     /\ flat_map page_shapes pages = concat pieces.
Proof.
  intros ENV fuel ps template base pnum pages h HY H0 T B E.
  assert (NW : forall n c, In c (pg_columns (template n)) -> roomy h (cf_new c)).
  { intros n c I. destruct (T n) as (_ & F). rewrite Forall_forall in F. specialize (F c I). split; cbn; [|auto].
    eapply Qcle_trans; eauto. }
  eapply (auto_pages_spec (roomy_from h) (roomy h)) in E as (_ & P & pieces & F & S).
  - split; [|eauto]. apply Forall_forall. intros p I. apply In_nth_error in I as (k & N). apply (P k p N).
  - intros cs cs' X [J1 J2]. split; intros i; rewrite <- X; auto.
  - apply Forall_forall. intros b I. apply in_map_iff in I as (p & <- & I). intros cs out J O. rewrite Forall_forall in B.
    destruct (B p I) as ((L1 & L2) & BT). cbn [block_columns] in O. split; [eapply para_only_adds; exact O|].
    destruct (para_any h fuel base p cs out HY BT L1 L2 J O) as (added & _ & NE & A & _ & _ & RO). split; [exact RO|].
    split; [intros j|intros j]; unfold next_cols; set (i := _ + _).
    + destruct (nth_in_or_default i out (cs i)) as [I2| ->]; [|apply J]. rewrite Forall_forall in RO. apply RO, I2.
    + rewrite nth_overflow; [|unfold i; lia]. apply adds_length in A. destruct added; [congruence|]. cbn in A.
      replace i with (S (List.length added + j)) by (unfold i; lia). apply J.
  - intros n. apply T.
  - split; [apply (flat_new template pnum (roomy h)); [intros; apply T|intros; eapply NW; eauto]|].
    apply (fresh_new template pnum). intros; apply T.
  - exact NW.
Qed.
Theorem C53_text : forall (ENV : Env QcNum) fuel ps template base pnum pages (h : Qc),
  all_split -> (0 <= h)%Qc -> room_for h template ->
  Forall (fun p => fits_lines h base p /\
    Forall (fun x => begins_text (fst x)) (span_strings base (ISpan (p_style p) (p_content p)))) ps ->
  auto_pages fuel (map (@BPara QcNum) ps) template base pnum = Ok pages ->
  exists rows, Forall2 (fun p prow => Forall2 shows_text prow (map (map fst) (para_lines base p))) ps rows
   /\ map line_text (flat_map shape_lines (flat_map page_shapes pages)) = concat (map (@concat str) rows).
Proof.
  intros ENV fuel ps template base pnum pages h HY H0 T B E.
  destruct (pages_roomy _ _ _ _ _ _ _ h HY H0 T B E) as (_ & pieces & F & S).
  assert (X : exists rows, Forall2 (fun p prow => Forall2 shows_text prow (map (map fst) (para_lines base p))) ps rows
     /\ map (fun s => map (map fst) (para_shape_lines s)) pieces = map (@concat str) rows).
  { eapply Forall2_rows with (R := fun p sl => exists s, gives_shapes (roomy_from h) fuel base (BPara p) s
       /\ sl = map (map fst) (para_shape_lines s)).
    - intros p sl I (s & (cs & added & out & J & P & _ & A & ->) & ->). rewrite Forall_forall in B. destruct (B p I) as ((L1 & L2) & BT).
      destruct (para_any h fuel base p cs out HY BT L1 L2 J P) as (added' & rows & _ & A' & C & R & _).
      rewrite (adds_unique _ _ _ _ A A'). exists rows. auto.
    - clear -F. remember (map (@BPara QcNum) ps) as bs eqn:E. revert ps E.
      induction F as [|b s bs pieces H F IH]; intros [|p ps] E; try discriminate; cbn [map]; constructor.
      + injection E as -> _. eauto.
      + injection E as _ E. auto. }
  destruct X as (rows & R & M). exists rows. split; [exact R|]. rewrite S, <- M. clear.
  induction pieces as [|s pieces IH]; [reflexivity|]. cbn [concat map]. rewrite flat_map_app, map_app, IH. f_equal.
  unfold para_shape_lines. rewrite map_map. reflexivity.
Qed.
Print Assumptions C53_text.
(** With styles, for both algorithms: a paragraph with optimal line breaks must not
    contain a space that stands alone at the end of a string or of a line of it (the
    change of style after it may be lost: C45). *)
Theorem C53_styles : forall (ENV : Env QcNum) fuel ps template base pnum pages (h : Qc),
  all_split -> (0 <= h)%Qc -> room_for h template ->
  Forall (fun p => fits_lines h base p /\
    Forall (fun x => begins_text (fst x)) (span_strings base (ISpan (p_style p) (p_content p)))) ps ->
  Forall (fun p => p_optimal p <> None ->
    Forall (fun x => ~ lone_space (fst x)) (span_strings base (ISpan (p_style p) (p_content p)))) ps ->
  auto_pages fuel (map (@BPara QcNum) ps) template base pnum = Ok pages ->
  exists rows, Forall2 (fun p prow => Forall2 conserves prow (para_lines base p)) ps rows
   /\ map (fun l => measured_all (tl_words l)) (flat_map shape_lines (flat_map page_shapes pages))
      = concat (map (@concat (list schar)) rows).
Proof.
  intros ENV fuel ps template base pnum pages h HY H0 T B L E.
  destruct (pages_roomy _ _ _ _ _ _ _ h HY H0 T B E) as (_ & pieces & F & S).
  assert (X : exists rows, Forall2 (fun p prow => Forall2 conserves prow (para_lines base p)) ps rows
     /\ map (fun s => para_shape_lines s) pieces = map (@concat (list schar)) rows).
  { eapply Forall2_rows with (R := fun p sl => exists s, gives_shapes (roomy_from h) fuel base (BPara p) s
       /\ sl = para_shape_lines s).
    - intros p sl I (s & (cs & added & out & J & P & _ & A & ->) & ->). rewrite Forall_forall in B, L. destruct (B p I) as ((L1 & L2) & BT).
      destruct (para_styles h fuel base p cs out HY BT (L p I) L1 L2 J P) as (added' & rows & _ & A' & C & R & _).
      rewrite (adds_unique _ _ _ _ A A'). exists rows. auto.
    - clear -F. remember (map (@BPara QcNum) ps) as bs eqn:E. revert ps E.
      induction F as [|b s bs pieces H F IH]; intros [|p ps] E; try discriminate; cbn [map]; constructor.
      + injection E as -> _. eauto.
      + injection E as _ E. auto. }
  destruct X as (rows & R & M). exists rows. split; [exact R|]. rewrite S, <- M. clear.
  induction pieces as [|s pieces IH]; [reflexivity|]. cbn [concat map]. rewrite flat_map_app, map_app, IH. reflexivity.
Qed.
Print Assumptions C53_styles.
Definition ex_ps : list (@para QcNum) := [par long_text false; par long_text true].
Definition ex_pages := auto_pages 100 (map (@BPara QcNum) ex_ps) ex_template full_default 1.
Example C53_example :
  exact_eq QcNum /\ all_split /\ (0 <= Q2Qc 32)%Qc /\ room_for (Q2Qc 32) ex_template
  /\ Forall (fun p => fits_lines (Q2Qc 32) full_default p /\ para_begins full_default p) ex_ps
  /\ Forall (fun p => p_optimal p <> None ->
       Forall (fun x => ~ lone_space (fst x)) (span_strings full_default (ISpan (p_style p) (p_content p)))) ex_ps
  /\ is_ok ex_pages = true
  /\ rmap (fun pages => List.length pages) ex_pages = Ok 7
  /\ rmap (fun pages => map line_text (flat_map shape_lines (flat_map page_shapes pages))) ex_pages
     = Ok (map str_of ["one two"; "three four"; "five six"; "seven"; "eight nine"; "ten eleven"; "twelve"; "thirteen"; "fourteen";
                       "one two"; "three four"; "five six"; "seven"; "eight nine"; "ten eleven"; "twelve"; "thirteen"; "fourteen"]%string).
Proof.
  split; [exact QcNum_exact|]. split; [exact ex_splits|]. split; [discriminate|]. split.
  { intros n. unfold ex_template. cbn [pg_columns]. destruct (Z.even n); (split; [discriminate|]); repeat constructor; discriminate. }
  split; [repeat constructor; vm_compute; congruence|].
  split; [repeat (constructor; [intros _; repeat (constructor; [apply no_lone_space; vm_compute; reflexivity|]); constructor|]); constructor|].
  repeat split; vm_compute; reflexivity.
Qed.

(** ** C71.  On the pages of paragraphs, no column is filled beyond its height (provided
    that every column is as high as a line): the heights of its blocks add up to no
    more than that of the column. *)
Lemma pages_room : forall (ENV : Env QcNum) fuel ps template base pnum pages (h : Qc),
  (0 <= h)%Qc -> room_for h template -> Forall (fits_lines h base) ps ->
  auto_pages fuel (map (@BPara QcNum) ps) template base pnum = Ok pages ->
  Forall (fun p => Forall (roomy h) (snd p)) pages.
Proof.
  intros ENV fuel ps template base pnum pages h H0 T B E.
  assert (NW : forall n c, In c (pg_columns (template n)) -> roomy h (cf_new c)).
  { intros n c I. destruct (T n) as (_ & F). rewrite Forall_forall in F. specialize (F c I). split; cbn; [|auto].
    eapply Qcle_trans; eauto. }
  eapply (auto_pages_spec (roomy_from h) (roomy h)) in E as (_ & P & _).
  - apply Forall_forall. intros p I. apply In_nth_error in I as (k & N). apply (P k p N).
  - intros cs cs' X [J1 J2]. split; intros i; rewrite <- X; auto.
  - apply Forall_forall. intros b I. apply in_map_iff in I as (p & <- & I). intros cs out J O. rewrite Forall_forall in B.
    destruct (B p I) as (L1 & L2). cbn [block_columns] in O. pose proof (para_only_adds _ _ _ _ _ O) as OA. split; [exact OA|].
    unfold para_columns in O. change (max_lead _ _) with (para_lead base p) in O.
    pose proof (para_roomy h fuel p _ _ cs _ out L1 L2 J O) as RO. split; [exact RO|].
    split; [intros j|intros j]; unfold next_cols; set (i := _ + _).
    + destruct (nth_in_or_default i out (cs i)) as [I2| ->]; [|apply J]. rewrite Forall_forall in RO. apply RO, I2.
    + destruct OA as (NE & _). rewrite nth_overflow; [|unfold i; lia]. destruct out as [|c0 out]; [congruence|].
      replace i with (S (List.length out + j)) by (unfold i; cbn; lia). apply J.
  - intros n. apply T.
  - split; [apply (flat_new template pnum (roomy h)); [intros; apply T|intros; eapply NW; eauto]|].
    apply (fresh_new template pnum). intros; apply T.
  - exact NW.
Qed.
Theorem C71_inside_columns : forall (ENV : Env QcNum) fuel ps template base pnum pages (h : Qc),
  (0 <= h)%Qc -> room_for h template -> Forall (fits_lines h base) ps ->
  auto_pages fuel (map (@BPara QcNum) ps) template base pnum = Ok pages ->
  Forall (fun p => Forall (fun c => heights (col_shapes c) <= c_height (cf_box c))%Qc (snd p)) pages.
Proof.
  intros ENV fuel ps template base pnum pages h H0 T B E.
  pose proof (pages_room _ _ _ _ _ _ _ h H0 T B E) as R.
  pose proof (C52_on_pages _ _ _ _ _ _ _ (fun n => proj1 (T n)) E) as S.
  rewrite Forall_forall in R, S |- *. intros p I. specialize (R p I). specialize (S p I).
  rewrite Forall_forall in R, S |- *. intros c J. destruct (R c J) as (F & _). destruct (S c J) as (_ & X).
  rewrite X in F. apply Qcle_minus_iff. exact F.
Qed.
Print Assumptions C71_inside_columns.

(** ** C54.  A first-fit paragraph: the lines keep text and styles as in C53, and of
    each of its pieces (one per column), drawn at any position by any reader, all
    characters are shown in the font, size and colour of their span, and encoded for that
    font, except for a part (A) of the first word: its characters are shown and encoded
    for the right font, but possibly in another font, size or colour (X); and if the
    first word does not change the style, there is no exception. *)
Definition first_word {NUM : Num} (ls : list tline) : list wordlike := firstn 1 (text_words ls).
(** What is said about one piece of a paragraph ([shown_styles]), and the theorems. *)
Definition shown_styles {NUM : Num} {ENV : Env NUM} (s : shaped) : Prop := forall pos width v,
  let wanted := flat_map (fun l => measured_all (tl_words l)) (shape_lines s) in
  let got := shown_chars (fst (view v (sh_ops s pos width))) in
  (exists A B X, wanted = A ++ B /\ List.length A <= List.length (measured_all (first_word (shape_lines s)))
     /\ got = X ++ map want B /\ map fst X = map (fun c => fst (want c)) A)
  /\ (Forall plain (first_word (shape_lines s)) -> got = map want wanted).
Lemma piece_shown {NUM : Num} {ENV : Env NUM} lead a ls st :
  Forall (fun l => tl_cmd l = NoOp) ls -> coh_all (text_words ls) st -> shown_styles (chunk lead a ls).
Proof.
  intros NC CO pos width v. cbn [chunk shape_lines]. cbn zeta.
  unfold first_word. split.
  - destruct (text_words ls) as [|w r] eqn:EW.
    + exists [], [], []. assert (LC := no_words_chars ls EW). unfold lines_chars in LC. rewrite LC.
      split; [reflexivity|]. split; [cbn; lia|]. split; [|reflexivity].
      assert (CS := chunk_shows ls lead a (nmul (nZ (Z.of_nat (List.length ls))) lead) pos width st v NC).
      rewrite EW in CS. specialize (CS I ltac:(discriminate)). unfold lines_chars in CS. rewrite LC in CS. exact CS.
    + assert (CT := chunk_tail ls lead a (nmul (nZ (Z.of_nat (List.length ls))) lead) pos width st w r v NC).
      rewrite EW in CT. destruct (CT CO eq_refl) as (A1 & B1 & X1 & E1 & L1 & E2 & E3). exists A1, B1, X1.
      split; [exact E1|]. split; [|split; [exact E2|exact E3]].
      cbn [firstn measured_all flat_map]. rewrite app_nil_r. exact L1.
  - intros P. apply (chunk_shows ls _ _ _ pos width st v NC CO). intros w r EW. rewrite EW in P, CO. cbn [firstn] in P.
    inversion P as [|? ? P1 _]; subst. destruct CO as [CO _]. rewrite (plain_state w st P1 CO). repeat split.
Qed.
Theorem C54_paragraph_style_partial : forall (NUM : Num) (ENV : Env NUM) fuel base p cs out,
  exact_eq NUM -> all_split -> p_optimal p = None ->
  Forall (fun x => begins_text (fst x)) (span_strings base (ISpan (p_style p) (p_content p))) ->
  para_columns fuel p base cs = Ok out ->
  exists added rows, added <> [] /\ adds cs added out
  /\ Forall2 conserves rows (para_lines base p)
  /\ concat rows = map (fun l => measured_all (tl_words l)) (flat_map shape_lines (concat added))
  /\ Forall shown_styles (concat added).
Proof.
  intros NUM ENV fuel base p cs out EX HY N B E.
  destruct (para_ff fuel base p cs out EX HY B N E) as (added & rows & NE & A & R & C & F).
  exists added, rows. split; [exact NE|]. split; [exact A|]. split; [exact R|]. split; [exact C|].
  eapply Forall_impl; [|exact F]. intros s (ls & -> & NC & st & CO). eapply piece_shown; eauto.
Qed.
Print Assumptions C54_paragraph_style_partial.
(** The same for a paragraph with optimal line breaks, in columns that are as high as a
    line, if no space stands alone at the end of a string or of a line of it. *)
Theorem C54_optimal_partial : forall (ENV : Env QcNum) fuel base p cs out (h : Qc),
  all_split -> (0 < para_lead base p)%Qc -> (para_lead base p <= h)%Qc -> roomy_from h cs ->
  Forall (fun x => begins_text (fst x) /\ ~ lone_space (fst x)) (span_strings base (ISpan (p_style p) (p_content p))) ->
  para_columns fuel p base cs = Ok out ->
  exists added rows, added <> [] /\ adds cs added out
  /\ Forall2 conserves rows (para_lines base p)
  /\ concat rows = map (fun l => measured_all (tl_words l)) (flat_map shape_lines (concat added))
  /\ Forall shown_styles (concat added).
Proof.
  intros ENV fuel base p cs out h HY LP LH RM B E.
  destruct (para_styles h fuel base p cs out HY) as (added & rows & NE & A & R & C & F); auto.
  - eapply Forall_impl; [|exact B]. intros x X. apply X.
  - intros _. eapply Forall_impl; [|exact B]. intros x X. apply X.
  - exists added, rows. split; [exact NE|]. split; [exact A|]. split; [exact R|]. split; [exact C|].
    eapply Forall_impl; [|exact F]. intros s (ls & -> & NC & st & CO). eapply piece_shown; eauto.
Qed.
Print Assumptions C54_optimal_partial.
Definition ex_styled : list (@item QcNum) := [IStr (str_of "plain text and "); ISpan sty_bold [IStr (str_of "bold")]; IStr (str_of " text")].
Definition para_shapes (p : @para QcNum) : list (@shaped QcNum) :=
  flat_map col_shapes (ok_or [] (para_columns 100 p full_default (flat_todo ex_doc))).
Example C54_example :
  exact_eq QcNum /\ all_split /\ p_optimal (par ex_styled false) = None
  /\ para_begins full_default (par ex_styled false)
  /\ is_ok (para_columns 100 (par ex_styled false) full_default (flat_todo ex_doc)) = true
  /\ map (fun s => map line_text (shape_lines s)) (para_shapes (par ex_styled false))
     = [map str_of ["plain text"; "and bold"]%string; map str_of ["text"]%string].
Proof.
  split; [exact QcNum_exact|]. split; [exact ex_splits|]. split; [reflexivity|]. split; [repeat constructor|].
  split; vm_compute; reflexivity.
Qed.
Example C54_optimal_example :
  all_split /\ (0 < para_lead full_default (par ex_styled true))%Qc /\ (para_lead full_default (par ex_styled true) <= Q2Qc 32)%Qc
  /\ roomy_from (Q2Qc 32) (flat_todo ex_doc) /\ p_optimal (par ex_styled true) <> None
  /\ Forall (fun x => begins_text (fst x) /\ ~ lone_space (fst x)) (span_strings full_default (ISpan (p_style (par ex_styled true)) (p_content (par ex_styled true))))
  /\ is_ok (para_columns 100 (par ex_styled true) full_default (flat_todo ex_doc)) = true
  /\ map (fun s => map line_text (shape_lines s)) (para_shapes (par ex_styled true))
     = [map str_of ["plain text"; "and bold"]%string; map str_of ["text"]%string].
Proof.
  split; [exact ex_splits|]. split; [vm_compute; reflexivity|]. split; [vm_compute; discriminate|].
  split.
  { assert (T : forall n, pg_columns (ex_template n) <> []) by (intros n; unfold ex_template; cbn [pg_columns]; destruct (Z.even n); discriminate).
    split; [|apply (fresh_new ex_template 1%Z T)]. apply (flat_new ex_template 1%Z (roomy (Q2Qc 32)) T).
    intros n c. unfold ex_template. cbn [pg_columns]. destruct (Z.even n); cbn [In]; intros J;
      repeat (destruct J as [<-|J]; [split; cbn; discriminate|]); destruct J. }
  split; [discriminate|]. split; [repeat (constructor; [split; [exact I|apply no_lone_space; vm_compute; reflexivity]|]); constructor|].
  split; vm_compute; reflexivity.
Qed.
(** The exception is real: in Paragraph(["Hello ", Span("world", bold)]), "Hello" is
    encoded for the regular font but shown in bold. *)
Definition hello : @para QcNum := par [IStr (str_of "Hello "); ISpan sty_bold [IStr (str_of "world")]] false.
Theorem C54_paragraph_style_refuted :
  is_ok (para_columns 100 hello full_default (flat_todo ex_doc)) = true
  /\ map (map fst) (para_lines full_default hello) = [str_of "Hello world"]
  /\ exists s, para_shapes hello = [s]
     /\ let got := shown_chars (fst (view v_start (sh_ops s ex_loc (nZ 60)))) in
        map (fun c => fst (fst c)) (firstn 5 got) = str_of "Hello"
        /\ Forall (fun c => f_bold (snd (fst c)) = false /\ option_map f_bold (fst (fst (snd c))) = Some true) (firstn 5 got).
Proof.
  split; [vm_compute; reflexivity|]. split; [vm_compute; reflexivity|].
  exists (nth 0 (para_shapes hello) ex_rule). split.
  - assert (L : List.length (para_shapes hello) = 1) by (vm_compute; reflexivity).
    destruct (para_shapes hello) as [|x [|y l]]; try discriminate L. reflexivity.
  - cbn zeta. set (got := shown_chars _). split; [vm_compute; reflexivity|].
    assert (B : forallb (fun c => negb (f_bold (snd (fst c))) && match option_map f_bold (fst (fst (snd c))) with Some true => true | _ => false end) (firstn 5 got) = true) by (vm_compute; reflexivity).
    rewrite forallb_forall in B. apply Forall_forall. intros c I. apply B, andb_true_iff in I as (I1 & I2).
    split; [apply negb_true_iff, I1|]. destruct (option_map f_bold _) as [[]|]; congruence.
Qed.
Print Assumptions C54_paragraph_style_refuted.
(** For optimal line breaks, the condition that no space stands alone is needed:
    Paragraph(["abcdefghij ", Span(" ", bold), "klmnopqrst"]) in a narrow column: the bold
    space is a line of its own, and the text after it, encoded for the regular font, is
    shown in bold although it is not the first word. *)
Definition lonely : @para QcNum :=
  par [IStr (str_of "abcdefghij "); ISpan sty_bold [IStr (str_of " ")]; IStr (str_of "klmnopqrst")] true.
Definition tall : nat -> @colfill QcNum := fun _ => cf_new (ex_column 10 20 100).
Definition lonely_shapes : list (@shaped QcNum) := flat_map col_shapes (ok_or [] (para_columns 100 lonely full_default tall)).
Theorem C54_optimal_refuted :
  p_optimal lonely <> None /\ (para_lead full_default lonely <= Q2Qc 100)%Qc /\ roomy_from (Q2Qc 100) tall
  /\ is_ok (para_columns 100 lonely full_default tall) = true
  /\ map (map fst) (para_lines full_default lonely) = [str_of "abcdefghij  klmnopqrst"]
  /\ exists s, lonely_shapes = [s]
     /\ let got := shown_chars (fst (view v_start (sh_ops s ex_loc (nZ 60)))) in
        List.length (measured_all (first_word (shape_lines s))) = 10
        /\ map (fun c => fst (fst c)) (skipn 10 got) = str_of "klmnopqrst"
        /\ Forall (fun c => f_bold (snd (fst c)) = false /\ option_map f_bold (fst (fst (snd c))) = Some true) (skipn 10 got).
Proof.
  split; [discriminate|]. split; [vm_compute; discriminate|].
  split; [split; [intros i; split; cbn; discriminate|reflexivity]|].
  split; [vm_compute; reflexivity|]. split; [vm_compute; reflexivity|].
  exists (nth 0 lonely_shapes ex_rule). split.
  - assert (L : List.length lonely_shapes = 1) by (vm_compute; reflexivity).
    destruct lonely_shapes as [|x [|y l]]; try discriminate L. reflexivity.
  - cbn zeta. set (got := shown_chars _). split; [vm_compute; reflexivity|]. split; [vm_compute; reflexivity|].
    assert (B : forallb (fun c => negb (f_bold (snd (fst c))) && match option_map f_bold (fst (fst (snd c))) with Some true => true | _ => false end) (skipn 10 got) = true) by (vm_compute; reflexivity).
    rewrite forallb_forall in B. apply Forall_forall. intros c I. apply B, andb_true_iff in I as (I1 & I2).
    split; [apply negb_true_iff, I1|]. destruct (option_map f_bold _) as [[]|]; congruence.
Qed.
Print Assumptions C54_optimal_refuted.
