(** * Property theorems: user given initial states at the time asked for (C161) *)
From Coq Require Import Reals List Bool Arith.
From Verif Require Import RVec SWSystem Geotiff InitialRegions FunctionTime FunctionTimeSpec FunctionTimeProofs.
Import ListNotations.
Local Open Scope R_scope.

(** ** User given initial states at the time asked for (C161) *)

(** However often and for whichever points and times the expressions are evaluated one after the other, each value is the one at the point and the time of its own call. *)
Theorem C161_calls :
  forall f parsers calls c,
  snd (perform_all f (program parsers calls) c) = values_at f parsers calls.
Proof. exact C161_calls_proof. Qed.
Print Assumptions C161_calls.

(** Two calls, the second for an earlier time. *)
Example C161_calls_ex :
  values_at growing [0%nat; 1%nat] [((fun _ => 3), 2); ((fun _ => 5), 1)] = [1 + 2; 1 * 3; 1 + 1; 1 * 5].
Proof. exact calls_case. Qed.

(** A scalar initial state is the value of the expression at this time, whatever times the parser was used with before. *)
Theorem C161_scalar :
  forall f x t c,
  forall k, snd (scalar_compute f x t c) k = match k with O => f 0%nat x t | S _ => 0 end.
Proof. exact C161_scalar_proof. Qed.
Print Assumptions C161_scalar.

(** The time stored before was 7. *)
Example C161_scalar_ex :
  snd (scalar_compute growing (fun _ => 3) 2 (fun _ => 7)) 0%nat = 3.
Proof. exact scalar_case. Qed.

(** The state of a gas is the one described by the expressions for density, velocity and pressure at this time. *)
Theorem C161_gas :
  forall dim from_primitive f x t c,
  snd (gas_compute dim from_primitive f x t c) =
  gas_function dim from_primitive (f 0%nat) (fun i => f (S i)) (f (S dim)) x t.
Proof. exact C161_gas_proof. Qed.
Print Assumptions C161_gas.

(** Two space dimensions; the time stored before was 7. *)
Example C161_gas_ex :
  snd (gas_compute 2 (fun w => w) growing (fun _ => 3) 2 (fun _ => 7)) 0%nat = 3 /\
  snd (gas_compute 2 (fun w => w) growing (fun _ => 3) 2 (fun _ => 7)) 3%nat = 9.
Proof. exact gas_case. Qed.

(** The state of shallow water is the one described by the expressions for depth and velocity at this time. *)
Theorem C161_water :
  forall dim f x t c,
  snd (water_compute dim f x t c) = water_function dim (f 0%nat) (fun i => f (S i)) x t.
Proof. exact C161_water_proof. Qed.
Print Assumptions C161_water.

(** One space dimension. *)
Example C161_water_ex :
  snd (water_compute 1 growing (fun _ => 3) 2 (fun _ => 7)) 0%nat = 3 /\
  snd (water_compute 1 growing (fun _ => 3) 2 (fun _ => 7)) 1%nat = 9.
Proof. exact water_case. Qed.

(** With the bathymetry from a file, the state is the one described by the expressions for height and velocity at this time; the file decides about failures. *)
Theorem C161_geotiff :
  forall p img dim f x t c,
  snd (geotiff_compute p img dim f x t c) = gt_compute p img dim (f 0%nat) (f 1%nat) x t.
Proof. exact C161_geotiff_proof. Qed.
Print Assumptions C161_geotiff.

(** Threads that share an initial state get the right values in whichever order their calls are interleaved, provided all of them ask for the same time. *)
Theorem C161_threads :
  forall f parsers t calls c c' final,
  Forall (Forall (fun a => snd a = t)) calls ->
  steps f (c, map (begin parsers) calls) (c', final) ->
  Forall (fun th => todo th = []) final ->
  map got final = map (values_at f parsers) calls.
Proof. exact C161_threads_proof. Qed.
Print Assumptions C161_threads.

(** Two threads that interrupt each other. *)
Example C161_threads_ex :
  let o := fun _ : nat => 0 in
  Forall (Forall (fun a => snd a = 1)) [[(o, 1)]; [(o, 1)]] /\
  exists c' final,
  steps clock_expression (fun _ => 0, map (begin [0%nat]) [[(o, 1)]; [(o, 1)]]) (c', final) /\
  Forall (fun th => todo th = []) final.
Proof. exact threads_case. Qed.

(** Threads asking for different times can get values at the time of the other thread. *)
Theorem C161_threads_refuted :
  exists f parsers calls c c' final,
  steps f (c, map (begin parsers) calls) (c', final) /\
  Forall (fun th => todo th = []) final /\
  map got final <> map (values_at f parsers) calls.
Proof. exact C161_threads_refuted_proof. Qed.
Print Assumptions C161_threads_refuted.
