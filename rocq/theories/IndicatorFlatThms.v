(** * Property theorems: indicators near uniform states (C127) *)
From Coq Require Import Reals List Arith Bool Lia Lra.
From Verif Require Import RVec EulerSystem EulerLimiter AeosSystem SWSystem Indicator PhysSpec PhysExamples IndicatorFlatSpec IndicatorFlat.
Import ListNotations.
Local Open Scope R_scope.

(** Euler: the indicator at a node with state U and neighbours with the states U + t V_j
    has the derivative 0 in t = 0, for arbitrary V_j and c_ij. *)
Theorem C127_euler :
  forall s evc dim U hd l,
  0 < gamma s -> 0 < density U -> 0 < pressure s dim U / (gamma s - 1) -> 0 <= evc -> 0 < hd ->
  derivable_pt_lim (fun t => value (euler_indicator s evc dim U (harten_entropy s dim U) (nearby (harten_entropy s dim) U l t) hd)) 0 0.
Proof. exact C127_euler_proof. Qed.
Print Assumptions C127_euler.

(** The same for an arbitrary equation of state with the surrogate entropy. *)
Theorem C127_aeos :
  forall e evc dim g U hd l,
  0 < g + 1 -> 0 < a_density U -> 0 < 1 - interp_b e * a_density U ->
  0 < a_internal_energy dim U - a_density U * interp_q e - interp_pinf e * (1 - interp_b e * a_density U) -> 0 <= evc -> 0 < hd ->
  derivable_pt_lim (fun t => value (aeos_indicator e evc dim g U (surrogate_harten_entropy e dim U g)
    (nearby (fun u => surrogate_harten_entropy e dim u g) U l t) hd)) 0 0.
Proof. exact C127_aeos_proof. Qed.
Print Assumptions C127_aeos.

(** The same for shallow water if the c_ij of the row sum to zero. *)
Theorem C127_sw :
  forall s eps tiny evc dim U hd l,
  0 < water_depth U -> cutoff_small s eps < water_depth U -> 0 < tiny -> 0 <= evc ->
  (forall k, (k < dim)%nat -> fold_right Rplus 0 (map (fun x : vec * vec => snd x k) l) = 0) ->
  derivable_pt_lim (fun t => value (sw_indicator s eps tiny evc dim U (w_mathematical_entropy s eps dim U)
    (nearby (w_mathematical_entropy s eps dim) U l t) hd)) 0 0.
Proof. exact C127_sw_proof. Qed.
Print Assumptions C127_sw.

(** Concrete states and matrices. *)
Example C127_ex :
  (0 < gamma ex_euler /\ 0 < density ex_U /\ 0 < pressure ex_euler 2 ex_U / (gamma ex_euler - 1)) /\
  (0 < 7 / 5 + 1 /\ 0 < a_density ex_U /\ 0 < 1 - interp_b ex_eos * a_density ex_U /\
   0 < a_internal_energy 2 ex_U - a_density ex_U * interp_q ex_eos - interp_pinf ex_eos * (1 - interp_b ex_eos * a_density ex_U)) /\
  (0 < water_depth ex_W /\ cutoff_small ex_shallow (1 / 1000) < water_depth ex_W) /\
  (let l := [(ex_U, fun _ => 0); (ex_D, fun k => if Nat.eqb k 0 then 1 else 2); (ex_W, fun k => if Nat.eqb k 0 then -1 else -2)] in
   forall k, (k < 2)%nat -> fold_right Rplus 0 (map (fun x : vec * vec => snd x k) l) = 0).
Proof. exact C127_setting. Qed.
