(** * Property theorems: the jump of the flow over a bump (C101) *)
From Coq Require Import Reals Lra Lia.
From Verif Require Import RVec EulerSystem BalanceSpec SWInitialStates SWInitialSpec SWInitialJump SWInitialCrest.
Local Open Scope R_scope.

(** C101: at the crest the transcritical flow has the critical depth, a finite slope, and solves
    the equations. *)
Theorem C101_crest : forall g dim, 0 < g -> (1 <= dim)%nat ->
  let W := fun t x => flow_over_bump g false x t in
  exists hc, 0 < hc /\ g * hc ^ 3 = 18 / 100 * (18 / 100) /\
  forall t x, 1 / 10 ^ 12 < t -> x 0%nat = 10 ->
    W t x 0%nat = hc /\ derivable_pt_lim (fun y => W t (fun _ => y) 0%nat) 10 (- sqrt (hc / 10)) /\
    solves_shallow_water g dim bump_bathymetry no_friction W t x.
Proof. exact C101_crest_proof. Qed.
Print Assumptions C101_crest.

Example C101_crest_case : exists x : vec, x 0%nat = 10 /\ 0 < 981 / 100 /\ 1 / 10 ^ 12 < 1 /\ (1 <= 2)%nat.
Proof. exists (fun _ => 10). repeat split; lra || lia. Qed.

(** C101 fails at the jump: the discharge is the same on both sides, but the momentum flux is
    not, anywhere between the crest and the jump on one side and behind the jump on the other.
    A jump at rest over a continuous ground needs equal momentum fluxes. *)
Theorem C101_jump_refuted : forall dim, (1 <= dim)%nat ->
  let W := fun t x => flow_over_bump (981 / 100) false x t in
  let flux := fun q h => q * q / h + 981 / 100 / 2 * (h * h) in
  forall t x y, 1 / 10 ^ 12 < t -> 10 < x 0%nat < 117 / 10 -> 117 / 10 < y 0%nat ->
    W t x 1%nat = W t y 1%nat /\
    flux (W t x 1%nat) (W t x 0%nat) + 1 / 200 < flux (W t y 1%nat) (W t y 0%nat).
Proof. exact C101_jump_proof. Qed.
Print Assumptions C101_jump_refuted.

Example C101_jump_case : exists x y : vec, 10 < x 0%nat < 117 / 10 /\ 117 / 10 < y 0%nat /\ 1 / 10 ^ 12 < 1 /\ (1 <= 2)%nat.
Proof. exists (fun _ => 11), (fun _ => 13). repeat split; lra || lia. Qed.

(** A point that lies exactly on the jump gets neither of the two depths, but the one of the
    flow in front of the crest. *)
Theorem C101_seam_refuted : forall dim, (1 <= dim)%nat ->
  let W := fun t x => flow_over_bump (981 / 100) false x t in
  forall t x y z, 1 / 10 ^ 12 < t -> y 0%nat = 117 / 10 -> 10 < x 0%nat < 117 / 10 -> 117 / 10 < z 0%nat ->
    W t x 0%nat < 15 / 100 /\ 4 / 10 < W t y 0%nat /\ W t z 0%nat < 29 / 100.
Proof. exact C101_seam_proof. Qed.
Print Assumptions C101_seam_refuted.

Example C101_seam_case : exists x y z : vec,
  y 0%nat = 117 / 10 /\ 10 < x 0%nat < 117 / 10 /\ 117 / 10 < z 0%nat.
Proof. exists (fun _ => 11), (fun _ => 117 / 10), (fun _ => 13). repeat split; lra. Qed.
