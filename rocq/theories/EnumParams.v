(** * Enumeration parameters

    source/patterns_conversion.h and the uses of DECLARE_ENUM.  [None]: an exception
    (AssertThrow).  The pattern Patterns::Selection of deal.II accepts a string that
    equals one of the choices between the separators; that it also ignores blanks at
    the ends of the list of choices is not modelled. *)
From Coq Require Import String Ascii List Bool.
Import ListNotations.
Local Open Scope string_scope.

Section Convert.
Context {T : Type}.
Variable eqb : T -> T -> bool.
Variable table : list (T * string).

(** Convert::to_pattern, source/patterns_conversion.h:34-41. *)
Definition to_pattern : string :=
  fold_left (fun s it => if String.eqb s "" then snd it else s ++ "|" ++ snd it) table "".

(** Patterns::Selection::match of deal.II: the current choice is compared at each
    separator and at the end.  Used in source/patterns_conversion.h:32-39. *)
Fixpoint selection_match (cur pattern : string) (s : string) : bool :=
  match pattern with
  | "" => String.eqb cur s
  | String c p => if Ascii.eqb c "|" then String.eqb cur s || selection_match "" p s
                  else selection_match (cur ++ String c "") p s
  end.

(** Convert::to_string, source/patterns_conversion.h:43-56. *)
Definition to_string (t : T) : option string :=
  match find (fun it => eqb (fst it) t) table with
  | Some it => Some (snd it)
  | None => None
  end.

(** Convert::to_value, source/patterns_conversion.h:58-73. *)
Definition to_value (s : string) : option T :=
  if selection_match "" to_pattern s then
    match find (fun it => String.eqb (snd it) s) table with
    | Some it => Some (fst it)
    | None => None
    end
  else None.
End Convert.

(** source/time_integrator.h:25-39 *)
Inductive CFLRecoveryStrategy := cfl_none | bang_bang_control.

(** source/time_integrator.h:47-206 *)
Inductive TimeSteppingScheme :=
| ssprk_22 | ssprk_33 | erk_11 | erk_22 | erk_33 | erk_43 | erk_54
| strang_ssprk_33_cn | strang_erk_33_cn | strang_erk_43_cn | imex_11 | imex_22 | imex_33.

(** source/mesh_adaptor.h:22-34 *)
Inductive AdaptationStrategy := global_refinement | random_adaptation.

(** source/mesh_adaptor.h:43-48 *)
Inductive MarkingStrategy := fixed_number.

(** source/mesh_adaptor.h:55-60 *)
Inductive TimePointSelectionStrategy := fixed_adaptation_time_points.

(** source/discretization.h:48-123 *)
Inductive Boundary := do_nothing | periodic | slip | no_slip | dirichlet | dynamic | dirichlet_momentum.

(** source/discretization.h:131-152 *)
Inductive Ansatz := cg_q1 | cg_q2 | cg_q3 | dg_q0 | dg_q1 | dg_q2 | dg_q3.

(** Equality of enumerators (operator== of the enumerations).
    Used for the comparison in source/patterns_conversion.h:43-75. *)
Definition dec_eqb {T} (dec : forall a b : T, {a = b} + {a <> b}) (a b : T) : bool := if dec a b then true else false.

(** Equality of the enumerators of source/time_integrator.h:25. *)
Definition cfl_dec (a b : CFLRecoveryStrategy) : {a = b} + {a <> b}. Proof. decide equality. Defined.
(** Equality of the enumerators of source/time_integrator.h:47. *)
Definition scheme_dec (a b : TimeSteppingScheme) : {a = b} + {a <> b}. Proof. decide equality. Defined.
(** Equality of the enumerators of source/mesh_adaptor.h:22. *)
Definition adaptation_dec (a b : AdaptationStrategy) : {a = b} + {a <> b}. Proof. decide equality. Defined.
(** Equality of the enumerators of MarkingStrategy, source/mesh_adaptor.h:43. *)
Definition marking_dec (a b : MarkingStrategy) : {a = b} + {a <> b}. Proof. decide equality. Defined.
(** Equality of the enumerators of TimePointSelectionStrategy, source/mesh_adaptor.h:55. *)
Definition time_point_dec (a b : TimePointSelectionStrategy) : {a = b} + {a <> b}. Proof. decide equality. Defined.
(** Equality of the enumerators of Boundary, source/discretization.h:48-123. *)
Definition boundary_dec (a b : Boundary) : {a = b} + {a <> b}. Proof. decide equality. Defined.
(** Equality of the enumerators of source/discretization.h:131-152. *)
Definition ansatz_dec (a b : Ansatz) : {a = b} + {a <> b}. Proof. decide equality. Defined.

(** source/time_integrator.h:210-213 *)
Definition cfl_table := [(cfl_none, "none"); (bang_bang_control, "bang bang control")].

(** source/time_integrator.h:215-229 *)
Definition scheme_table :=
  [(ssprk_22, "ssprk 22"); (ssprk_33, "ssprk 33"); (erk_11, "erk 11"); (erk_22, "erk 22"); (erk_33, "erk 33");
   (erk_43, "erk 43"); (erk_54, "erk 54"); (strang_ssprk_33_cn, "strang ssprk 33 cn");
   (strang_erk_33_cn, "strang erk 33 cn"); (strang_erk_43_cn, "strang erk 43 cn");
   (imex_11, "imex 11"); (imex_22, "imex 22"); (imex_33, "imex 33")].

(** source/mesh_adaptor.h:64-68 *)
Definition adaptation_table := [(global_refinement, "global refinement"); (random_adaptation, "random adaptation")].

(** source/mesh_adaptor.h:70-71 *)
Definition marking_table := [(fixed_number, "fixed number")].

(** source/mesh_adaptor.h:73-76 *)
Definition time_point_table := [(fixed_adaptation_time_points, "fixed adaptation time points")].

(** source/discretization.h:156-164 *)
Definition boundary_table :=
  [(do_nothing, "do nothing"); (periodic, "periodic"); (slip, "slip"); (no_slip, "no slip"); (dirichlet, "dirichlet");
   (dynamic, "dynamic"); (dirichlet_momentum, "dirichlet momentum")].

(** source/discretization.h:166-173 *)
Definition ansatz_table :=
  [(cg_q1, "cG Q1"); (cg_q2, "cG Q2"); (cg_q3, "cG Q3"); (dg_q0, "dG Q0"); (dg_q1, "dG Q1"); (dg_q2, "dG Q2"); (dg_q3, "dG Q3")].
