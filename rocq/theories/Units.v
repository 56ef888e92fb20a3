(** * Units: /repo/src/pdfje/units.py, and the colours of common.py *)
From Verif Require Import Base.
From Coq Require Import QArith.
From Verif Require Import Num Fonts State Common.
Open Scope nat_scope.

Section Units.
Context {NUM : Num}.
(** units.py 18-25: [partial(mul, c)].  The literals 28.346456692913385 and
    2.8346456692913385 are written as the fractions these doubles are. *)
Definition cm_factor : num := nQ (3989409118733707 # 140737488355328)%Q.
Definition mm_factor : num := nQ (6383054589973931 # 2251799813685248)%Q.
Definition inch (x : num) : num := nmul (nZ 72) x.
Definition cm (x : num) : num := nmul cm_factor x.
Definition mm (x : num) : num := nmul mm_factor x.
Definition pc (x : num) : num := nmul (nZ 12) x.
(** 28-30 *)
Definition pt (x : num) : num := x.

Definition paper (w h : Z) : xy := mkXY (nZ w) (nZ h).
(** 33-54 ([A4] is in Document.v) *)
Definition A0 : xy := paper 2380 3368.
Definition A1 : xy := paper 1684 2380.
Definition A2 : xy := paper 1190 1684.
Definition A3 : xy := paper 842 1190.
Definition A5 : xy := paper 420 595.
Definition A6 : xy := paper 297 420.
Definition letter : xy := paper 612 792.
Definition legal : xy := paper 612 1008.
Definition tabloid : xy := paper 792 1224.
Definition ledger : xy := xy_flip tabloid.

(** common.py 339-346 *)
Definition rgbZ (r g b : Z) : rgb := mkRGB (nZ r) (nZ g) (nZ b).
Definition red : rgb := rgbZ 1 0 0.
Definition lime : rgb := rgbZ 0 1 0.
Definition blue : rgb := rgbZ 0 0 1.
Definition black : rgb := rgbZ 0 0 0.
Definition white : rgb := rgbZ 1 1 1.
Definition yellow : rgb := rgbZ 1 1 0.
Definition magenta : rgb := rgbZ 1 0 1.
Definition cyan : rgb := rgbZ 0 1 1.
End Units.
