(** * Enumeration parameters: property theorems *)
From Coq Require Import String List.
From Verif Require Import EnumParams EnumParamsSpec EnumParamsProofs.
Import ListNotations.
Local Open Scope string_scope.

(** C52: every enumeration of the code survives the way through the parameter file,
    every string that is accepted is written back as it was read, and exactly the
    strings of the table are accepted. *)
Theorem C52_tables :
  survives cfl_dec cfl_table /\ survives scheme_dec scheme_table /\ survives adaptation_dec adaptation_table /\
  survives marking_dec marking_table /\ survives time_point_dec time_point_table /\
  survives boundary_dec boundary_table /\ survives ansatz_dec ansatz_table.
Proof. exact C52_tables_proof. Qed.
Print Assumptions C52_tables.

Example C52_tables_case :
  to_string (dec_eqb boundary_dec) boundary_table dirichlet_momentum = Some "dirichlet momentum" /\
  to_value boundary_table "dirichlet momentum" = Some dirichlet_momentum /\
  to_value boundary_table "dirichlet" = Some dirichlet /\
  to_value boundary_table "Slip" = None /\ to_value boundary_table "slip|no slip" = None /\
  to_value boundary_table "" = None.
Proof. repeat split; reflexivity. Qed.

(** C52: the string that selects an enumerator is its identifier, with blanks for
    underscores and up to case. *)
Theorem C52_names :
  speaking cfl_dec cfl_table cfl_identifier /\ speaking scheme_dec scheme_table scheme_identifier /\
  speaking adaptation_dec adaptation_table adaptation_identifier /\ speaking marking_dec marking_table marking_identifier /\
  speaking time_point_dec time_point_table time_point_identifier /\ speaking boundary_dec boundary_table boundary_identifier /\
  speaking ansatz_dec ansatz_table ansatz_identifier.
Proof. exact C52_names_proof. Qed.
Print Assumptions C52_names.

Example C52_names_case : lower "dG Q2" = spelled (ansatz_identifier dg_q2) /\ lower "dG Q2" <> spelled (ansatz_identifier cg_q2).
Proof. split; [reflexivity|discriminate]. Qed.

(** C52: the round trip for every enumeration whose table is complete, without repetitions,
    and whose names are not empty and contain no separator. *)
Theorem C52_round_trip {T} (dec : forall a b : T, {a = b} + {a <> b}) (table : list (T * string)) :
  well_formed table -> (forall t, In t (map fst table)) -> survives dec table.
Proof. exact (C52_round_trip_proof dec table). Qed.
Print Assumptions C52_round_trip.

Example C52_round_trip_case : well_formed [(true, "on"); (false, "off")] /\ forall t, In t (map fst [(true, "on"); (false, "off")]).
Proof.
  split.
  - split; [|split].
    + repeat (constructor; [cbn; intuition discriminate|]); constructor.
    + repeat (constructor; [cbn; intuition discriminate|]); constructor.
    + intros it [<-|[<-|[]]]; split; (reflexivity || discriminate).
  - intros []; cbn; tauto.
Qed.

(** C52: an enumerator that is missing in the table raises an exception when the
    parameter file is written. *)
Theorem C52_missing {T} (dec : forall a b : T, {a = b} + {a <> b}) (table : list (T * string)) t :
  ~ In t (map fst table) -> to_string (dec_eqb dec) table t = None.
Proof. exact (C52_missing_proof dec table t). Qed.
Print Assumptions C52_missing.

Example C52_missing_case : ~ In no_slip (map fst [(slip, "slip"); (dirichlet, "dirichlet")]).
Proof. cbn. intuition discriminate. Qed.
