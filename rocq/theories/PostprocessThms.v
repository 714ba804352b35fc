(** * Property theorems: schlieren and vorticity plots (C118 - C120) *)
From Coq Require Import Reals String List Bool Arith Lia Lra.
From Verif Require Import RVec Extractor Postprocess PostprocessSpec PostprocessProofs PostprocessFinal.
Import ListNotations.
Local Open Scope R_scope.

(** ** C118 *)

(** For a quantity that is affine in space, the raw schlieren value is the length of its
    gradient: any dimension, any stencil. *)
Theorem C118_schlieren : forall M x i f (g : vec) b,
  exact_gradient M x i ->
  (forall j, In j (p_columns M i) -> f j = dot (p_dim M) g (x j) + b) ->
  schlieren_raw M f i = sqrt (norm2 (p_dim M) g).
Proof. exact C118_schlieren_proof. Qed.
Print Assumptions C118_schlieren.

(** For an affine vector field in the plane, the raw vorticity is the derivative of the
    second component along the first axis minus that of the first along the second. *)
Theorem C118_vorticity_2d : forall M x i q A v,
  p_dim M = 2%nat -> exact_gradient M x i ->
  (forall j, In j (p_columns M i) -> forall k, (k < 2)%nat -> q j k = affine_field 2 A v (x j) k) ->
  vorticity_raw M q i = A 1%nat 0%nat - A 0%nat 1%nat.
Proof. exact C118_vorticity_2d_proof. Qed.
Print Assumptions C118_vorticity_2d.

(** In space it is the length of the curl. *)
Theorem C118_vorticity_3d : forall M x i q A v,
  p_dim M = 3%nat -> exact_gradient M x i ->
  (forall j, In j (p_columns M i) -> forall k, (k < 3)%nat -> q j k = affine_field 3 A v (x j) k) ->
  let wx := A 2%nat 1%nat - A 1%nat 2%nat in
  let wy := A 0%nat 2%nat - A 2%nat 0%nat in
  let wz := A 1%nat 0%nat - A 0%nat 1%nat in
  vorticity_raw M q i = sqrt (wx * wx + wy * wy + wz * wz).
Proof. exact C118_vorticity_3d_proof. Qed.
Print Assumptions C118_vorticity_3d.

(** A cross of five nodes in the plane and of seven nodes in space. *)
Example C118_ex : forall dim,
  dim = 2%nat \/ dim = 3%nat -> exact_gradient (cross_mesh dim) cross_point 0.
Proof. exact cross_exact. Qed.

(** A rotating and stretching flow, and a density rising along a direction. *)
Example C118_case_ex :
  vorticity_raw (cross_mesh 2) (fun j => affine_field 2 (fun k b => if (k =? b)%nat then 1 else if (k =? 1)%nat then 3 else - (4)) (fun _ => 5) (cross_point j)) 0 = 7 /\
  schlieren_raw (cross_mesh 2) (fun j => dot 2 (fun k => if (k =? 0)%nat then 3 else 4) (cross_point j) + 9) 0 = 5.
Proof. exact cross_case. Qed.

(** ** C119 *)

(** All shown values are strictly between -1 and 1. *)
Theorem C119_range : forall M big beta eps floor rc raws s k i v,
  0 <= beta -> 0 < eps -> p_constrained M i = false \/ averaging M i ->
  shown (p_compute M big beta eps floor rc raws s) k i = Some v -> -1 < v < 1.
Proof. exact C119_range_proof. Qed.
Print Assumptions C119_range.

(** The identified row of a periodic interval. *)
Example C119_range_ex :
  averaging ring_mesh 3.
Proof. exact ring_averaging. Qed.

(** The shown value has the sign of the raw value, and larger magnitudes are shown as
    magnitudes that are at least as large. *)
Theorem C119_order : forall M big beta eps floor rc raws s k i j vi vj ri rj,
  0 <= beta -> 0 < eps -> p_constrained M i = false -> p_constrained M j = false ->
  raw_at raws k i = Some ri -> raw_at raws k j = Some rj ->
  shown (p_compute M big beta eps floor rc raws s) k i = Some vi ->
  shown (p_compute M big beta eps floor rc raws s) k j = Some vj ->
  0 <= vi * ri /\ (Rabs ri <= Rabs rj -> Rabs vi <= Rabs vj).
Proof. exact C119_order_proof. Qed.
Print Assumptions C119_order.

(** Magnitudes that differ by more than the noise floor remain distinguishable. *)
Theorem C119_strict : forall M big beta eps floor raws s k i j vi vj ri rj,
  0 < beta -> 0 < eps -> 0 <= floor ->
  (forall l, In l (owned M) -> p_constrained M l = false) -> In i (owned M) -> In j (owned M) ->
  raw_at raws k i = Some ri -> raw_at raws k j = Some rj ->
  shown (p_compute M big beta eps floor true raws s) k i = Some vi ->
  shown (p_compute M big beta eps floor true raws s) k j = Some vj ->
  Rabs ri + floor < Rabs rj -> Rabs vi < Rabs vj.
Proof. exact C119_strict_proof. Qed.
Print Assumptions C119_strict.

(** With fresh bounds the smallest magnitude is shown as zero, and the largest as
    1 - exp(-beta) up to the noise floor. *)
Theorem C119_extremes : forall M big beta eps floor raws s k i v r,
  0 <= beta -> 0 < eps -> 0 <= floor ->
  (forall j, In j (owned M) -> p_constrained M j = false) -> In i (owned M) ->
  raw_at raws k i = Some r -> Rabs r <= big ->
  shown (p_compute M big beta eps floor true raws s) k i = Some v ->
  ((forall j rj, In j (owned M) -> raw_at raws k j = Some rj -> Rabs r <= Rabs rj) -> v = 0) /\
  (forall l rl, In l (owned M) -> raw_at raws k l = Some rl -> eps <= Rabs r - Rabs rl ->
     (forall j rj, In j (owned M) -> raw_at raws k j = Some rj -> Rabs rl <= Rabs rj <= Rabs r) ->
     Rabs v = 1 - exp (- beta * Rmax 0 (1 - floor / (Rabs r - Rabs rl)))).
Proof. exact C119_extremes_proof. Qed.
Print Assumptions C119_extremes.

(** Three rows with the raw values 1/10, 0 and 1/10. *)
Example C119_case_ex :
  let M := free_ring [[0; 1]; [2]]%nat in
  let raws := [schlieren_raw M ring_field] in
  let out := p_compute M 1000 10 (1 / 1000000) (1 / 1000) true raws (p_prepared 1) in
  In 0%nat (owned M) /\ In 1%nat (owned M) /\ (forall j, In j (owned M) -> p_constrained M j = false) /\
  raw_at raws 0 0 = Some (1 / 10) /\ raw_at raws 0 1 = Some 0 /\ raw_at raws 0 2 = Some (1 / 10) /\
  shown out 0 1 = Some 0 /\ exists v, shown out 0 0 = Some v /\ 9 / 10 < v.
Proof. exact free_ring_case. Qed.

(** The distribution of the rows over the ranks does not matter. *)
Theorem C119_ranks : forall M N big beta eps floor rc raws s,
  redistributed M N ->
  p_compute N big beta eps floor rc raws s = p_compute M big beta eps floor rc raws s.
Proof. exact C119_ranks_proof. Qed.
Print Assumptions C119_ranks.

(** Three rows on one rank and on two. *)
Example C119_ranks_ex :
  redistributed (free_ring [[0; 1; 2]]%nat) (free_ring [[2]; [0; 1]]%nat).
Proof. exact free_ring_redistributed. Qed.

(** Without constrained rows earlier outputs do not matter if bounds are recomputed. *)
Theorem C119_history : forall M big beta eps floor raws s s' k i,
  (forall j, In j (owned M) -> p_constrained M j = false) -> In i (owned M) ->
  length (p_quantities s) = length raws -> length (p_quantities s') = length raws ->
  shown (p_compute M big beta eps floor true raws s) k i = shown (p_compute M big beta eps floor true raws s') k i.
Proof. exact C119_history_proof. Qed.
Print Assumptions C119_history.

(** The ring of three rows. *)
Example C119_history_ex : forall ranks,
  forall j, In j (owned (free_ring ranks)) -> p_constrained (free_ring ranks) j = false.
Proof. exact free_ring_free. Qed.

(** With a constrained row they do: the same state shown twice gives two different
    pictures, on a periodic interval with the default beta. *)
Theorem C119_history_refuted :
  exists (M : pmesh) (f : nat -> R) (i : nat) (v v' : R),
    let raws := [schlieren_raw M f] in
    let first := p_compute M 1000 10 (1 / 1000000) (1 / 1000) true raws (p_prepared 1) in
    let second := p_compute M 1000 10 (1 / 1000000) (1 / 1000) true raws first in
    (forall j, In j (owned M) -> p_constrained M j = false \/ averaging M j) /\
    In i (owned M) /\ p_constrained M i = false /\
    shown first 0 i = Some v /\ shown second 0 i = Some v' /\ v' < v.
Proof. exact C119_history_refuted_proof. Qed.
Print Assumptions C119_history_refuted.

(** If bounds are not recomputed, then from the second output cycle on equal raw values
    are shown equally in all outputs. *)
Theorem C119_kept : forall M big beta eps floor outs raws c s k i j r v v',
  length (p_quantities s) = length raws -> c <> 0%nat ->
  (forall cr, In cr outs -> fst cr <> 0%nat /\ length (snd cr) = length raws) ->
  p_constrained M i = false -> p_constrained M j = false ->
  let first := p_output M big beta eps floor false raws c s in
  let later := fold_left (fun s cr => p_output M big beta eps floor false (snd cr) (fst cr) s) outs first in
  forall raws', outs <> [] -> raws' = snd (last outs (0%nat, [])) ->
  raw_at raws k i = Some r -> raw_at raws' k j = Some r ->
  shown first k i = Some v -> shown later k j = Some v' -> v = v'.
Proof. exact C119_kept_proof. Qed.
Print Assumptions C119_kept.

(** The bounds of output number 0 are dropped: without constrained rows it does not
    influence the next output. *)
Theorem C119_first : forall M big beta eps floor raws0 raws s c k i,
  (forall j, In j (owned M) -> p_constrained M j = false) -> In i (owned M) -> c <> 0%nat ->
  length (p_quantities s) = length raws -> length raws0 = length raws ->
  shown (p_output M big beta eps floor false raws c (p_output M big beta eps floor false raws0 0 s)) k i =
  shown (p_output M big beta eps floor false raws c (p_prepared (length raws))) k i.
Proof. exact C119_first_proof. Qed.
Print Assumptions C119_first.

(** Two outputs of the ring. *)
Example C119_kept_ex :
  let M := free_ring [[0; 1]; [2]]%nat in
  let raws := [schlieren_raw M ring_field] in
  let outs := [(2%nat, raws)] in
  let first := p_output M 1000 10 (1 / 1000000) (1 / 1000) false raws 1 (p_prepared 1) in
  let later := fold_left (fun s cr => p_output M 1000 10 (1 / 1000000) (1 / 1000) false (snd cr) (fst cr) s) outs first in
  length (p_quantities (p_prepared 1)) = length raws /\
  (forall cr, In cr outs -> fst cr <> 0%nat /\ length (snd cr) = length raws) /\ raws = snd (last outs (0%nat, [])) /\
  raw_at raws 0 0 = raw_at raws 0 2 /\ shown first 0 0 <> None /\ shown later 0 2 <> None.
Proof. exact free_ring_kept. Qed.

(** ** C120 *)

(** Exactly the names of conserved and primitive quantities are accepted. *)
Theorem C120_accepted : forall t names,
  populate t names <> None <->
  forall e, In e names -> In e (component_names t) \/ In e (primitive_component_names t).
Proof. exact C120_accepted_proof. Qed.
Print Assumptions C120_accepted.

(** The value read for an accepted name exists and is the one with this name, a
    conserved quantity if there is one of this name. *)
Theorem C120_schlieren : forall t names idx u prim k e,
  populate t names = Some idx -> nth_error names k = Some e ->
  length u = length (component_names t) -> length prim = length (primitive_component_names t) ->
  exists q x, nth_error idx k = Some q /\ p_read u prim q 0 = Some x /\
    ((exists n, nth_error (component_names t) n = Some e /\ nth_error u n = Some x) \/
     (~ In e (component_names t) /\ exists n, nth_error (primitive_component_names t) n = Some e /\ nth_error prim n = Some x)).
Proof. exact C120_schlieren_proof. Qed.
Print Assumptions C120_schlieren.

(** The vorticity of the momentum and of the velocity reads these vectors. *)
Theorem C120_vorticity : forall dim t name idx,
  dim = 2%nat \/ dim = 3%nat -> In t [euler_tables dim; aeos_tables dim; shallow_water_tables dim] ->
  name = "m_1"%string \/ name = "v_1"%string -> populate t [name] = Some [idx] ->
  forall u prim, length u = length (component_names t) -> length prim = length (primitive_component_names t) ->
  p_read_vector u prim idx dim = Some (firstn dim (tl (if String.eqb name "m_1" then u else prim))).
Proof. exact C120_vorticity_proof. Qed.
Print Assumptions C120_vorticity.

(** Names a user might give. *)
Example C120_ex :
  populate (euler_tables 2) ["rho"; "p"; "m_1"]%string = Some [(false, 0); (true, 3); (false, 1)]%nat /\
  populate (euler_tables 3) ["m_1"]%string = Some [(false, 1%nat)] /\ populate (aeos_tables 2) ["v_1"]%string = Some [(true, 1%nat)] /\
  populate (euler_tables 2) ["m"]%string = None.
Proof. exact names_case. Qed.

(** Other accepted names read beyond the end of the state. *)
Theorem C120_range_refuted :
  exists t name idx, In t (shipped_tables 2) /\ populate t [name] = Some [idx] /\
    forall u prim, length u = length (component_names t) -> length prim = length (primitive_component_names t) ->
    p_read_vector u prim idx 2 = None.
Proof. exact C120_range_refuted_proof. Qed.
Print Assumptions C120_range_refuted.

(** The names of the output fields are distinct. *)
Theorem C120_distinct : forall schlieren vorticity,
  NoDup schlieren -> NoDup vorticity -> NoDup (plot_names schlieren vorticity).
Proof. exact C120_distinct_proof. Qed.
Print Assumptions C120_distinct.
