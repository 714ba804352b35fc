(** * Property theorems: the boundary map and the coupling pairs (C55, C56, C87) *)
From Coq Require Import Reals Arith List Bool Lia Lra Permutation Sorted.
From Verif Require Import RVec SchemeSpec BoundaryMap BoundaryMapSpec BoundaryMapFinal BoundaryMapRays BoundaryPairs.
Import ListNotations.
Local Open Scope R_scope.

(** C55: every entry is a sum of contributions of one degree of freedom and one boundary
    id, and every contribution is part of some entry. *)
Theorem C55_groups dim eps n visits : 0 < eps -> exists l groups,
  Permutation l (contributions n visits) /\
  Forall2 (fun d mem =>
     mem <> [] /\ NoDup mem /\
     (forall q, In q mem -> exists e, nth_error l q = Some e /\ fst e = d_index d /\ same_id dim (b_id (snd e)) (d_id d)) /\
     d_boundary_mass d = lsum (fun q => match nth_error l q with Some e => b_mass (snd e) | None => 0 end) mem /\
     (forall x, d_normal_mass d * d_normal d x = lsum (fun q => match nth_error l q with Some e => b_normal (snd e) x | None => 0 end) mem))
    (construct_boundary_map dim eps n visits) groups /\
  (forall q, (q < length l)%nat -> exists mem, In mem groups /\ In q mem) /\
  ((forall k, (ccount k l <= 2)%nat) -> Permutation (concat groups) (seq 0 (length l))).
Proof. exact (groups_proof dim eps n visits). Qed.
Print Assumptions C55_groups.

Example C55_groups_case : map fst (contributions 2 corner) = [0; 1; 0]%nat.
Proof. reflexivity. Qed.

(** C55: with at most two contributions per degree of freedom (every regular mesh in two
    dimensions) nothing is lost or counted twice. *)
Theorem C55_total dim eps n visits k : 0 < eps -> (forall k, (ccount k (contributions n visits) <= 2)%nat) ->
  let out := construct_boundary_map dim eps n visits in
  lsum (fun d => if Nat.eqb (d_index d) k then d_boundary_mass d else 0) out =
    lsum (fun e => if Nat.eqb (fst e) k then b_mass (snd e) else 0) (contributions n visits) /\
  forall x, lsum (fun d => if Nat.eqb (d_index d) k then d_normal_mass d * d_normal d x else 0) out =
    lsum (fun e => if Nat.eqb (fst e) k then b_normal (snd e) x else 0) (contributions n visits).
Proof. exact (C55_total_proof dim eps n visits k). Qed.
Print Assumptions C55_total.

Example C55_total_case : (forall k, (ccount k (contributions 2 corner) <= 2)%nat) /\ length (contributions 2 corner) = 3%nat.
Proof. split; [|reflexivity]. intros [|[|k]]; cbn; auto. Qed.

(** C55: the entries are those of the owned, unconstrained degrees of freedom of boundary
    faces that are not periodic; they are sorted by index. *)
Theorem C55_indices dim eps n visits k : 0 < eps ->
  In k (map d_index (construct_boundary_map dim eps n visits)) <-> exists e, In e (contributions n visits) /\ fst e = k.
Proof. exact (C55_indices_proof dim eps n visits k). Qed.
Print Assumptions C55_indices.

Theorem C55_sorted dim eps n visits : StronglySorted (fun a b => (d_index a <= d_index b)%nat) (construct_boundary_map dim eps n visits).
Proof. exact (C55_sorted_proof dim eps n visits). Qed.
Print Assumptions C55_sorted.

(** C55: the normals are shorter than one; the normal mass is the length of the integral
    of the normal up to the machine epsilon. *)
Theorem C55_unit dim eps n visits d : 0 < eps -> In d (construct_boundary_map dim eps n visits) ->
  norm2 dim (d_normal d) < 1 /\ eps <= d_normal_mass d /\
  d_normal_mass d = sqrt (norm2 dim (vscal (d_normal_mass d) (d_normal d))) + eps.
Proof. exact (C55_unit_proof dim eps n visits d). Qed.
Print Assumptions C55_unit.

(** C55: on a boundary with flat sides, pairwise 60 degrees or more apart, there is exactly
    one entry per degree of freedom, id and side; it holds the sum of its contributions
    and its normal points in the direction of the side. *)
Theorem C55_rays dim eps n visits D ray : 0 < eps -> on_rays dim D ray (contributions n visits) ->
  (dim <> 2%nat \/ forall e, In e (contributions n visits) -> b_id (snd e) <> id_slip) ->
  exists keys, NoDup keys /\ (forall key, In key keys <-> exists e, In e (contributions n visits) /\ ray_key ray e = key) /\
    Forall2 (fun d key => d_index d = fst (fst key) /\ d_id d = snd (fst key) /\
        d_boundary_mass d = ray_sum ray key b_mass (contributions n visits) /\
        exists m, 0 < m /\ d_normal_mass d = m + eps /\
          forall x, (x < dim)%nat -> m * D (snd key) x = ray_sum ray key (fun b => b_normal b x) (contributions n visits) /\
                                     d_normal d x = m / (m + eps) * D (snd key) x)
      (construct_boundary_map dim eps n visits) keys.
Proof. exact (C55_rays_proof dim eps n visits D ray). Qed.
Print Assumptions C55_rays.

Example C55_rays_case : on_rays 3 axis box_ray (contributions 1 box_vertex) /\ length (contributions 1 box_vertex) = 4%nat.
Proof. split; [exact box_rays|reflexivity]. Qed.

(** C55: in two dimensions a degree of freedom keeps at most one slip entry, and a corner
    of two slip walls becomes no slip on both. *)
Theorem C55_slip_once eps n visits k :
  (length (filter (fun d => Nat.eqb (d_index d) k && Nat.eqb (d_id d) id_slip) (construct_boundary_map 2 eps n visits)) <= 1)%nat.
Proof. exact (C55_slip_once_proof eps n visits k). Qed.
Print Assumptions C55_slip_once.

Theorem C55_corner eps n visits k a b :
  filter (fun e => Nat.eqb (fst e) k) (contributions n visits) = [(k, a); (k, b)] -> b_id a = id_slip -> b_id b = id_slip ->
  dot 2 (b_normal a) (b_normal b) <= 1 / 2 * (sqrt (norm2 2 (b_normal a)) * sqrt (norm2 2 (b_normal b))) ->
  0 < norm2 2 (b_normal a) -> 0 < norm2 2 (b_normal b) ->
  map (fun d => (d_id d, d_boundary_mass d)) (filter (fun d => Nat.eqb (d_index d) k) (construct_boundary_map 2 eps n visits)) =
    [(id_no_slip, b_mass a); (id_no_slip, b_mass b)].
Proof. exact (C55_corner_proof eps n visits k a b). Qed.
Print Assumptions C55_corner.

Example C55_corner_case : exists a b, filter (fun e => Nat.eqb (fst e) 0) (contributions 2 corner) = [(0%nat, a); (0%nat, b)] /\
  b_id a = id_slip /\ b_id b = id_slip /\ dot 2 (b_normal a) (b_normal b) <= 1 / 2 * (sqrt (norm2 2 (b_normal a)) * sqrt (norm2 2 (b_normal b))) /\
  0 < norm2 2 (b_normal a) /\ 0 < norm2 2 (b_normal b).
Proof.
  eexists _, _. split; [reflexivity|]. split; [reflexivity|]. split; [reflexivity|]. split; [|split].
  - cbn [b_normal]. match goal with |- ?d <= 1 / 2 * (?u * ?v) => assert (0 <= u) by apply sqrt_pos; assert (0 <= v) by apply sqrt_pos; assert (0 <= u * v) by (apply Rmult_le_pos; assumption); assert (d = 0) as -> end.
    + unfold dot, normal_of, v2. cbn. ring.
    + lra.
  - unfold norm2, dot. cbn. lra.
  - unfold norm2, dot. cbn. lra.
Qed.

(** C55: in three dimensions a contribution may be counted twice: two orthogonal faces of a
    vertex and the bevel between them. *)
Theorem C55_once_refuted : exists eps n visits,
  0 < eps /\ (forall e, In e (contributions n visits) -> 0 < b_mass (snd e)) /\ (forall v, In v visits -> v_id v = id_slip) /\
  lsum d_boundary_mass (construct_boundary_map 3 eps n visits) <> lsum (fun e => b_mass (snd e)) (contributions n visits).
Proof. exact C55_once_refuted_proof. Qed.
Print Assumptions C55_once_refuted.

(** C56: a pair is recorded, with its position in the row, iff its first index is owned,
    both are on the boundary and the second is in the row of the first off the diagonal. *)
Theorem C56_exact n_owned n_relevant row visits i c j :
  In (i, c, j) (collect_coupling_boundary_pairs n_owned n_relevant row visits) <->
  (i < n_owned)%nat /\ on_boundary n_relevant visits i /\ on_boundary n_relevant visits j /\ (1 <= c)%nat /\ nth_error (row i) c = Some j.
Proof. exact (C56_exact_proof n_owned n_relevant row visits i c j). Qed.
Print Assumptions C56_exact.

(** C56: no pair is recorded twice. *)
Theorem C56_once n_owned n_relevant row visits : NoDup (collect_coupling_boundary_pairs n_owned n_relevant row visits).
Proof. exact (C56_once_proof n_owned n_relevant row visits). Qed.
Print Assumptions C56_once.

(** C56: for a symmetric pattern the owned pairs are recorded in both orders. *)
Theorem C56_symmetric n_owned n_relevant row visits i j : (i < n_owned)%nat -> (j < n_owned)%nat ->
  (forall i j, (i < n_owned)%nat -> (j < n_owned)%nat -> In j (tl (row i)) -> In i (tl (row j))) ->
  (exists c, In (i, c, j) (collect_coupling_boundary_pairs n_owned n_relevant row visits)) <->
  (exists c, In (j, c, i) (collect_coupling_boundary_pairs n_owned n_relevant row visits)).
Proof. exact (C56_symmetric_proof n_owned n_relevant row visits i j). Qed.
Print Assumptions C56_symmetric.

(** One cell of four degrees of freedom, 0 and 1 on a wall, 2 and 3 on a periodic side. *)
Example C56_case : collect_coupling_boundary_pairs 4 4 (fun i => i :: filter (fun j => negb (Nat.eqb j i)) [0; 1; 2; 3]%nat)
    [FVisit false true true 2 1; FVisit false true true 2 0; FVisit false true true 1 2; FVisit false true true 1 3] =
  [(0, 1, 1); (1, 1, 0)]%nat.
Proof. reflexivity. Qed.

(** C87: a degree of freedom of a multigrid level on the boundary is in the boundary map of
    the level if its index, read as an index of the active mesh, is that of an owned
    degree of freedom without constraint; *)
Theorem C87_level dim eps n row_length visits k : 0 < eps -> (k < n)%nat -> row_length k <> 1%nat ->
  (exists v, In v visits /\ v_index v = k /\ v_at_boundary v = true /\ v_support v = true /\ v_artificial v = false /\ v_id v <> id_periodic) ->
  In k (map d_index (level_boundary_map dim eps n row_length visits)).
Proof. exact (C87_level_proof dim eps n row_length visits k). Qed.
Print Assumptions C87_level.

Example C87_level_case : (0 < 4)%nat /\ 4%nat <> 1%nat /\
  exists v, In v corner /\ v_index v = 0%nat /\ v_at_boundary v = true /\ v_support v = true /\ v_artificial v = false /\ v_id v <> id_periodic.
Proof. split; [lia|]. split; [lia|]. eexists. split; [left; reflexivity|]. cbn. repeat split; auto. discriminate. Qed.

(** otherwise it is missing, e.g. if the active mesh has a hanging node of that index; *)
Theorem C87_complete_refuted : exists n row_length visits k n_level, (k < n_level)%nat /\ (n_level <= n)%nat /\
  (forall i, (1 <= row_length i)%nat) /\ In k (map v_index visits) /\ (forall v, In v visits -> v_at_boundary v = true /\ v_support v = true /\ v_artificial v = false /\ v_id v = id_slip /\ (v_index v < n_level)%nat) /\
  forall dim eps, ~ In k (map d_index (level_boundary_map dim eps n row_length visits)).
Proof. exact C87_complete_refuted_proof. Qed.
Print Assumptions C87_complete_refuted.

(** and a degree of freedom that the rank does not own on the level may be present. *)
Theorem C87_owned_refuted : exists n row_length visits k n_level, (n_level <= k)%nat /\
  (forall i, (2 <= row_length i)%nat) /\ (forall v, In v visits -> v_at_boundary v = true /\ v_support v = true /\ v_artificial v = false /\ v_id v = id_slip) /\
  forall dim eps, In k (map d_index (level_boundary_map dim eps n row_length visits)).
Proof. exact C87_owned_refuted_proof. Qed.
Print Assumptions C87_owned_refuted.
