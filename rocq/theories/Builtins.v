(** * Builtins: the metrics of the standard fonts.
    /repo/src/pdfje/fonts/builtins.py; the tables are in BuiltinTables (generated). *)
From Verif Require Import Base Num Fonts BuiltinTables.
Open Scope Z_scope.

(** common.py 349-358: [dictget] *)
Fixpoint dictget {A} (t : list (N * A)) (default : A) (c : N) : A :=
  match t with
  | [] => default
  | (k, v) :: r => if (k =? c)%N then v else dictget r default c
  end.
(** the keys of the kerning tables are pairs: here, two lookups *)
Definition kernget (t : list (N * list (N * Z))) (a b : N) : Z := dictget (dictget t [] a) 0 b.
Definition of_table (m : list (N * Z) * Z * list (N * list (N * Z))) : (N -> Z) * option (N -> N -> Z) :=
  let '(w, d, k) := m in (dictget w d, Some (kernget k)).
(** builtins.py 19-11067, with [always] for Courier, Symbol and ZapfDingbats *)
Definition builtin_metrics (b : builtin) : bool -> bool -> (N -> Z) * option (N -> N -> Z) :=
  match b with
  | Helvetica => pick4 (of_table metrics_Helvetica) (of_table metrics_Helvetica_Bold)
                       (of_table metrics_Helvetica_Oblique) (of_table metrics_Helvetica_BoldOblique)
  | TimesRoman => pick4 (of_table metrics_Times_Roman) (of_table metrics_Times_Bold)
                        (of_table metrics_Times_Italic) (of_table metrics_Times_BoldItalic)
  | Courier => fun _ _ => (fun _ => 600, None)
  | Symbol | ZapfDingbats => fun _ _ => (fun _ => 1000, None)
  end.
Definition builtin_width (b : builtin) (bold italic : bool) (c : char) : Z := fst (builtin_metrics b bold italic) c.
(** fonts/common.py 175-176: [charkern] *)
Definition builtin_kern (b : builtin) (bold italic : bool) (a c : char) : Z :=
  match snd (builtin_metrics b bold italic) with Some k => k a c | None => 0 end.
(** An environment in which the standard fonts have these metrics. *)
Definition standard_metrics {NUM : Num} (ENV : Env NUM) : Prop :=
  forall b bold italic, let f := mkFont (TBuiltin b) bold italic in
  (forall c, charwidth f c = nZ (builtin_width b bold italic c))
  /\ match snd (builtin_metrics b bold italic), kerntab f with
     | Some k, Some t => forall a c, t a c = nZ (k a c)
     | None, None => True
     | _, _ => False
     end.
