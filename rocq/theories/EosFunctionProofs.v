(** * Proofs about the equation of state given by expressions *)
From Coq Require Import Reals Lra.
From Verif Require Import AeosSystem Eos EosSpec EosProofs EosFunction.
Local Open Scope R_scope.

Lemma C41_function_proof rho x : rho <> 0 -> inverse_at (fn_p fn_construct) (fn_sie fn_construct) rho x.
Proof. intros H. unfold inverse_at. cbn. split; field; lra. Qed.

Lemma C42_function_proof rho e : rho <> 0 -> sound_law (fn_p fn_construct) (fn_sos fn_construct rho e) rho e.
Proof.
  intros H. destruct (pg_sound {| pg_gamma := 14 / 10; pg_R := 1; pg_cv := 1 |} rho e H) as (a & b & A & B & C).
  exists a, b. split; [exact A|]. split; [exact B|]. exact C.
Qed.

Lemma C74_function_proof rho e : thermal_law (718 * (14 / 10 - 1)) 0 0 (fn_p fn_construct rho e) rho (fn_temperature fn_construct rho e).
Proof. unfold thermal_law. cbn. field. Qed.

Lemma C41_function_parse_proof p sie sos temperature b pinfty q p' sie' sos' temperature' b' pinfty' q' :
  let o := fn_parse p sie sos temperature b pinfty q (fn_parse p' sie' sos' temperature' b' pinfty' q' fn_construct) in
  eos_pressure (fn_eos o) = p /\ eos_specific_internal_energy (fn_eos o) = sie /\ eos_speed_of_sound (fn_eos o) = sos /\
  fn_temperature o = temperature /\ interp_b (fn_eos o) = b /\ interp_pinf (fn_eos o) = pinfty /\ interp_q (fn_eos o) = q.
Proof. repeat split. Qed.

(** The default is the polytropic gas with gamma = 7/5. *)
Lemma C41_function_polytropic_proof : eos_pressure (fn_eos fn_construct) 2 3 = 12 / 5 /\
  forall rho e, eos_pressure (fn_eos fn_construct) rho e = eos_pressure (pg_eos pg_construct) rho e /\
    eos_specific_internal_energy (fn_eos fn_construct) rho e = eos_specific_internal_energy (pg_eos pg_construct) rho e /\
    eos_speed_of_sound (fn_eos fn_construct) rho e = eos_speed_of_sound (pg_eos pg_construct) rho e /\
    interp_b (fn_eos fn_construct) = interp_b (pg_eos pg_construct) /\ interp_pinf (fn_eos fn_construct) = interp_pinf (pg_eos pg_construct) /\
    interp_q (fn_eos fn_construct) = interp_q (pg_eos pg_construct).
Proof.
  split; [cbn; lra|]. intros rho e. cbn. unfold pg_pressure, pg_sie, pg_speed_of_sound. cbn.
  replace (7 / 5) with (14 / 10) by lra. repeat split.
Qed.

(** A van der Waals like pressure replaces the default and an earlier choice. *)
Lemma C41_function_parse_ex :
  let o := fn_parse (fun rho e => rho * e / (1 - rho / 10)) (fun rho p => p * (1 - rho / 10) / rho) (fun _ e => sqrt e) (fun _ e => e) (1 / 10) 0 0
    (fn_parse (fun _ _ => 1) (fun _ _ => 2) (fun _ _ => 3) (fun _ _ => 4) 5 6 7 fn_construct) in
  eos_pressure (fn_eos o) 5 1 = 10 /\ eos_specific_internal_energy (fn_eos o) 5 10 = 1 /\ interp_b (fn_eos o) = 1 / 10.
Proof. cbn. repeat split; field. Qed.

Lemma C41_function_ex : fn_p fn_construct 2 3 = 12 / 5 /\ fn_sie fn_construct 2 (12 / 5) = 3.
Proof. cbn. split; field. Qed.

Lemma C42_function_ex : (fn_sos fn_construct 2 (50 / 14)) * (fn_sos fn_construct 2 (50 / 14)) = 2.
Proof. cbn. rewrite sqrt_sqrt; lra. Qed.

Lemma C74_function_ex : fn_temperature fn_construct 2 71800 = 100 /\ fn_p fn_construct 2 71800 = 57440.
Proof. cbn. split; field. Qed.
