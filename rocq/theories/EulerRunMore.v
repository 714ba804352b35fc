From Coq Require Import Reals List Arith Lia Lra.
From Verif Require Import RVec EulerSystem EulerScheme SchemeSpec SchemeProofs SchemeExamples EulerSchemeExamples TimeInt TimeIntSpec TimeIntProofs EulerRun EulerRunSpec EulerRunExamples RunLib.
From Verif Require Import Scheme.
Import ListNotations.
Local Open Scope R_scope.

Lemma C131_completes_proof : forall p dim M num_min entries data order n tmp sch cfl_min cfl_max t t_final s,
  proper_mesh M dim -> 0 < num_min -> explicit_scheme sch = true -> 0 < cfl_min -> 0 < cfl_max -> t < t_final ->
  exists h s', euler_step p dim M num_min entries data order n tmp sch bang_bang_control cfl_min cfl_max t t_final s = (Ok h, s') /\
    0 < h <= t_final - t.
Proof.
  intros p dim M nm entries data order n tmp sch c0 c1 t tf s (Hpat & Hmass & Hnum & Hpairs & Hdim & Hrows & Hpos) Hnm Hs H0 H1 Ht.
  destruct (progress_pos euler_vector (euler_prepare p dim M entries data) (euler_rows p dim M nm tmp) (euler_update p dim M nm order n tmp) no_parabolic euler_sadd
    sch c0 c1 t tf s) as (h & s' & Q); try assumption.
  - intros cfl v Hc. split.
    + intros E. unfold euler_rows, row_tau in E. apply map_eq_nil in E.
      destruct Hpos as [r0 Hpos]. apply active_spec in Hpos. rewrite E in Hpos. destruct Hpos.
    + apply Forall_forall. intros x Hx. eapply (row_tau_positive (euler_scheme p dim) M nm cfl v); eassumption.
  - exists h, s'. split; [exact Q|]. apply step_tau in Q. lra.
Qed.

(** A vacuum next to the shock tube states is no obstacle. *)
Lemma C131_completes_ex_proof : forall (s : mstate euler_vector), fst (st_vector _ s) = (fun i => if (i =? 0)%nat then (fun _ => 0) else tube_U i) ->
  exists h s', euler_step (gas_params 0) 1 ring3 (1 / 10000) walls tube_data [] 2 no_contents erk_33 bang_bang_control (1 / 2) (9 / 10) 0 1 s = (Ok h, s') /\ 0 < h <= 1 - 0.
Proof.
  intros s _. apply C131_completes_proof; try lra; [exact ring3_proper|reflexivity].
Qed.
