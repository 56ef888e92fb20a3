(** * C98: twice the sizes, twice the layout. *)
From Coq Require Import QArith Qcanon String.
From Verif Require Import Base Gfmt Num Fonts State Style StateProofs Words Parse Show Render Firstfit KnuthPlass Optimum Common Draw Layout
  ScaleWords ScaleText ScaleLines ScaleOptimum ScaleLayout ScaleRender
  Properties_Words Properties_Text Properties_Layout.
From Coq Require Import Lia.
Local Open Scope string_scope.
Local Open Scope list_scope.
Open Scope nat_scope.

(** all lengths times [k], and the colours as they are *)
Definition sized (k : Qc) : scaling := mkScaling k (fun c => c).

(** The same column, and the same operators with lengths [k] times as large (the strings
    shown and the adjustments between them, fonts and colours the same). *)
Definition larger_fill {ENV : Env QcNum} (k : scaling) (c c' : @colfill QcNum) : Prop :=
  cf_box c' = scaled_column k (cf_box c) /\ cf_free c' = (cf_free c * k)%Qc
  /\ List.length (cf_blocks c') = List.length (cf_blocks c)
  /\ Forall2 (larger_op k) (cf_ops c) (cf_ops c').

Lemma scaled_general {ENV : Env QcNum} (k : scaling) fuel blocks template base n : (0 < k)%Qc -> (forall a b, rgb_eqb (recolour k a) (recolour k b) = rgb_eqb a b) ->
  match auto_pages fuel blocks template base n,
        auto_pages fuel (map (scaled_block k) blocks) (fun i => scaled_page k (template i)) (scaled_full k base) n with
  | Ok pages, Ok pages' =>
      Forall2 (fun p p' => fst p' = scaled_page k (fst p) /\ Forall2 (larger_fill k) (snd p) (snd p')) pages pages'
  | Err e, Err e' => e = e'
  | _, _ => False
  end.
Proof.
  intros K G. rewrite (z_pages k K G fuel blocks template base n).
  destruct (auto_pages fuel blocks template base n) as [pages|e]; [|reflexivity]. cbn [rmap bind].
  induction pages as [|[p cs] ps IH]; cbn [map fst snd]; constructor; [|exact IH]. cbn [fst snd]. split; [reflexivity|].
  induction cs as [|c cs IHc]; cbn [map]; constructor; [|exact IHc]. repeat split.
  - cbn [scaled_fill cf_blocks]. apply map_length.
  - rewrite z_col_ops. apply z_larger.
Qed.

(** Rules and paragraphs, broken into optimal lines or not, in any number, with any styles
    and spans, laid out on any pages: with all sizes [k] times as large (of fonts,
    indentations, margins of rules, pages and columns; [k] above zero), the layout fails
    in the same way, or gives as many pages, with the same blocks in the same columns,
    the same lines with the same words (the strings shown are the same bytes), and all
    positions, lengths and the room left [k] times as large. *)
Theorem C98_scaled : forall (ENV : Env QcNum) (k : Qc) fuel blocks template base n, (0 < k)%Qc ->
  match auto_pages fuel blocks template base n,
        auto_pages fuel (map (scaled_block (sized k)) blocks) (fun i => scaled_page (sized k) (template i)) (scaled_full (sized k) base) n with
  | Ok pages, Ok pages' =>
      Forall2 (fun p p' => fst p' = scaled_page (sized k) (fst p) /\ Forall2 (larger_fill (sized k)) (snd p) (snd p')) pages pages'
  | Err e, Err e' => e = e'
  | _, _ => False
  end.
Proof.
  intros ENV k fuel blocks template base n K. exact (scaled_general (sized k) fuel blocks template base n K (fun a b => eq_refl)).
Qed.
Print Assumptions C98_scaled.
(** What is drawn by hand (lines, rectangles, ellipses, polylines, text): with all its
    points, lengths and font sizes [k] times as large it is refused in the same way, or the
    same with lengths [k] times as large. *)
Theorem C98_drawings : forall (ENV : Env QcNum) (k : Qc) (d : @drawing QcNum) base, (0 < k)%Qc ->
  match draw_ops d base, draw_ops (scaled_drawing (sized k) d) (scaled_full (sized k) base) with
  | Ok ops, Ok ops' => Forall2 (larger_op (sized k)) ops ops'
  | Err e, Err e' => e = e'
  | _, _ => False
  end.
Proof.
  intros ENV k d base K. rewrite (z_draw (sized k) K (fun a b => eq_refl)). destruct (draw_ops d base) as [ops|e]; [|reflexivity]. apply z_larger.
Qed.
Print Assumptions C98_drawings.

#[local] Existing Instance ex_words.
(** Text of several lines, on several pages, and a rule, two and a half times as large:
    the hypotheses hold, and both layouts succeed and show something; lines 15 and 37.5 apart. *)
Definition big_blocks : list (@block QcNum) :=
  [BPara (par long_text false); @BRule QcNum (@mkRGB QcNum 0%Qc 0%Qc 0%Qc) (mkSides (nZ 6) n0 (nZ 6) n0); BPara (par [IStr (str_of "small "); ISpan (mkStyle None (Some (nZ 8)) None None None None None) [IStr (str_of "smaller")]] false);
   BPara (par long_text true)].
Definition half_more : Qc := Q2Qc (5 # 2).
Definition counted (pages : list (@page QcNum (@drawing QcNum) * list (@colfill QcNum))) : list (list (nat * nat)) :=
  map (fun p => map (fun c => (List.length (cf_blocks c), List.length (cf_ops c))) (snd p)) pages.
Definition the_leads (pages : list (@page QcNum (@drawing QcNum) * list (@colfill QcNum))) : list Q :=
  flat_map (fun p => flat_map (fun c => flat_map (fun o => match o with OTL l => [this l] | _ => [] end) (cf_ops c)) (snd p)) pages.
Example C98_example :
  (0 < half_more)%Qc
  /\ let pages := ok_or [] (auto_pages 100 big_blocks ex_template full_default 1) in
     let pages' := ok_or [] (auto_pages 100 (map (scaled_block (sized half_more)) big_blocks) (fun i => scaled_page (sized half_more) (ex_template i)) (scaled_full (sized half_more) full_default) 1) in
     counted pages = [[(1, 10)]; [(2, 12); (1, 10)]; [(1, 10)]; [(1, 10); (3, 18)]; [(2, 16)]; [(1, 10); (2, 12)]; [(1, 10)]; [(1, 10); (1, 10)]] /\ counted pages' = counted pages
     /\ the_leads pages = repeat 15%Q 16 /\ the_leads pages' = repeat (75 # 2)%Q 16.
Proof.
  split; [reflexivity|]. cbn zeta. repeat split; vm_compute; reflexivity.
Qed.
Example C98_drawings_example :
  let t := @DText QcNum (@mkXY QcNum (nZ 10) (nZ 20)) [IStr (str_of "one two"); ISpan (mkStyle None (Some (nZ 8)) None None None None None) [IStr (str_of "small")]] style_empty ACenter in
  rmap (@List.length _) (draw_ops t full_default) = Ok 10 /\ rmap (@List.length _) (draw_ops (scaled_drawing (sized half_more) t) (scaled_full (sized half_more) full_default)) = Ok 10
  /\ rmap (@List.length _) (draw_ops (@DCircle QcNum (@mkXY QcNum (nZ 10) (nZ 20)) (nZ 5) None None) full_default) = Ok 6.
Proof. cbn zeta. repeat split; vm_compute; reflexivity. Qed.
