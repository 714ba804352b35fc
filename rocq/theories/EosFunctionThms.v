(** * Property theorems: the equation of state given by expressions (C41, C42, C74) *)
From Coq Require Import Reals.
From Verif Require Import AeosSystem Eos EosSpec EosProofs EosFunction EosFunctionProofs.
Local Open Scope R_scope.

(** The default expressions for energy and pressure are inverse to each other. *)
Theorem C41_function : forall rho x, rho <> 0 -> inverse_at (fn_p fn_construct) (fn_sie fn_construct) rho x.
Proof. exact C41_function_proof. Qed.
Print Assumptions C41_function.

(** The hypothesis is met. *)
Example C41_function_example : fn_p fn_construct 2 3 = 12 / 5 /\ fn_sie fn_construct 2 (12 / 5) = 3.
Proof. exact C41_function_ex. Qed.

(** The functions in use are those of the parameter file that was read in last. *)
Theorem C41_function_parse : forall p sie sos temperature b pinfty q p' sie' sos' temperature' b' pinfty' q',
  let o := fn_parse p sie sos temperature b pinfty q (fn_parse p' sie' sos' temperature' b' pinfty' q' fn_construct) in
  eos_pressure (fn_eos o) = p /\ eos_specific_internal_energy (fn_eos o) = sie /\ eos_speed_of_sound (fn_eos o) = sos /\
  fn_temperature o = temperature /\ interp_b (fn_eos o) = b /\ interp_pinf (fn_eos o) = pinfty /\ interp_q (fn_eos o) = q.
Proof. exact C41_function_parse_proof. Qed.
Print Assumptions C41_function_parse.

(** A covolume pressure replaces the default and an earlier choice. *)
Example C41_function_parse_example : 
  let o := fn_parse (fun rho e => rho * e / (1 - rho / 10)) (fun rho p => p * (1 - rho / 10) / rho) (fun _ e => sqrt e) (fun _ e => e) (1 / 10) 0 0
    (fn_parse (fun _ _ => 1) (fun _ _ => 2) (fun _ _ => 3) (fun _ _ => 4) 5 6 7 fn_construct) in
  eos_pressure (fn_eos o) 5 1 = 10 /\ eos_specific_internal_energy (fn_eos o) 5 10 = 1 /\ interp_b (fn_eos o) = 1 / 10.
Proof. exact C41_function_parse_ex. Qed.

(** Without parameters it is the polytropic gas with its default parameters. *)
Theorem C41_function_polytropic : eos_pressure (fn_eos fn_construct) 2 3 = 12 / 5 /\
  forall rho e, eos_pressure (fn_eos fn_construct) rho e = eos_pressure (pg_eos pg_construct) rho e /\
    eos_specific_internal_energy (fn_eos fn_construct) rho e = eos_specific_internal_energy (pg_eos pg_construct) rho e /\
    eos_speed_of_sound (fn_eos fn_construct) rho e = eos_speed_of_sound (pg_eos pg_construct) rho e /\
    interp_b (fn_eos fn_construct) = interp_b (pg_eos pg_construct) /\ interp_pinf (fn_eos fn_construct) = interp_pinf (pg_eos pg_construct) /\
    interp_q (fn_eos fn_construct) = interp_q (pg_eos pg_construct).
Proof. exact C41_function_polytropic_proof. Qed.
Print Assumptions C41_function_polytropic.

(** The default speed of sound is that of the default pressure. *)
Theorem C42_function : forall rho e, rho <> 0 -> sound_law (fn_p fn_construct) (fn_sos fn_construct rho e) rho e.
Proof. exact C42_function_proof. Qed.
Print Assumptions C42_function.

(** A case. *)
Example C42_function_example : (fn_sos fn_construct 2 (50 / 14)) * (fn_sos fn_construct 2 (50 / 14)) = 2.
Proof. exact C42_function_ex. Qed.

(** The default temperature is that of a gas with the gas constant 718 (gamma - 1). *)
Theorem C74_function : forall rho e,
  thermal_law (718 * (14 / 10 - 1)) 0 0 (fn_p fn_construct rho e) rho (fn_temperature fn_construct rho e).
Proof. exact C74_function_proof. Qed.
Print Assumptions C74_function.

(** A case. *)
Example C74_function_example : fn_temperature fn_construct 2 71800 = 100 /\ fn_p fn_construct 2 71800 = 57440.
Proof. exact C74_function_ex. Qed.
