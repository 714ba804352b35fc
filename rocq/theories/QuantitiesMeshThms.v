(** * Property theorems: the points of the manifolds and their files (C157) *)
From Coq Require Import Reals String List Bool Arith Permutation.
From Verif Require Import QuantitiesMesh QuantitiesMeshSpec QuantitiesMeshProofs QuantitiesMeshFinal.
Import ListNotations.
Local Open Scope R_scope.

(** ** The points of manifolds (C157) *)

(** All ranks together select each free degree of freedom on the level set once, however the mesh is distributed. *)
Theorem C157_interior : forall ranks G M owner f selected,
  distributes ranks G M owner -> NoDup selected ->
  (forall g, occurs G g -> f (pos G g) <> None) ->
  (forall g, In g selected <-> occurs G g /\ free G g /\ exists v, f (pos G g) = Some v /\ Rabs v <= 1 / 10 ^ 12) ->
  Permutation (all_points ranks M f) (map (fun g => (gmass G g, pos G g)) selected).
Proof. exact C157_interior_proof. Qed.
Print Assumptions C157_interior.

(** A degree of freedom on cells of two ranks. *)
Example C157_interior_ex :
  distributes 2 three_dofs two_cells two_owner /\ NoDup [1%nat] /\
  NoDup (map m_name ([middle_manifold] ++ [end_manifold])) /\
  (forall g, occurs three_dofs g -> middle (pos three_dofs g) <> None) /\
  (forall g, In g [1%nat] <-> occurs three_dofs g /\ free three_dofs g /\ exists v, middle (pos three_dofs g) = Some v /\ Rabs v <= 1 / 10 ^ 12).
Proof. exact middle_case. Qed.

(** On the boundary: the owned, unconstrained entries on the level set, in the order of the boundary map. *)
Theorem C157_boundary : forall M r f,
  (exists keep, boundary_points M r f = filter keep (boundary_map M r)) /\
  forall i d x, In (i, d, x) (boundary_points M r f) <->
    In (i, d, x) (boundary_map M r) /\ (i < n_owned M r)%nat /\ constrained M r i = false /\
    exists v, f x = Some v /\ Rabs v < 1 / 10 ^ 12.
Proof. exact C157_boundary_proof. Qed.
Print Assumptions C157_boundary.

(** The right end of an interval. *)
Example C157_boundary_ex :
  exists d, boundary_points two_cells 1 (fun x => Some (hd 0 x - 2)) = [(0%nat, d, [2])] /\
  boundary_points two_cells 0 (fun x => Some (hd 0 x - 2)) = [].
Proof. exact end_case. Qed.

(** If no name is used twice each interior manifold has these points, with their masses. *)
Theorem C157_prepare : forall ranks G M owner im bm m selected,
  distributes ranks G M owner ->
  NoDup (map m_name (im ++ bm)) -> In m im -> NoDup selected ->
  (forall g, occurs G g -> m_level m (pos G g) <> None) ->
  (forall g, In g selected <-> occurs G g /\ free G g /\ exists v, m_level m (pos G g) = Some v /\ Rabs v <= 1 / 10 ^ 12) ->
  distinct_names (prepare ranks M im bm) /\
  exists ps, In (m, ps) (interior (prepare ranks M im bm)) /\ length ps = ranks /\
    Permutation (concat (map (map snd) ps)) (map (fun g => pos G g ++ [gmass G g])%list selected).
Proof. exact C157_prepare_proof. Qed.
Print Assumptions C157_prepare.

(** Also if a name is repeated the first manifold of every name has its points. *)
Theorem C157_first : forall ranks M im bm l1 m l2,
  im = (l1 ++ m :: l2)%list -> (forall x, In x l1 -> m_name x <> m_name m) ->
  NoDup (map (fun e => m_name (fst e)) (interior (prepare ranks M im bm))) /\
  exists ps, In (m, ps) (interior (prepare ranks M im bm)) /\ length ps = ranks /\
    forall r, (r < ranks)%nat ->
      nth_error ps r = Some (map (fun p => (fst (fst p), snd p ++ [snd (fst p)])%list) (interior_map M r (m_level m))).
Proof. exact C157_first_proof. Qed.
Print Assumptions C157_first.

(** Each boundary manifold has its points, with normal and masses. *)
Theorem C157_prepare_boundary : forall ranks M im bm m,
  NoDup (map m_name (im ++ bm)) -> In m bm ->
  exists ps, In (m, ps) (boundary (prepare ranks M im bm)) /\ length ps = ranks /\
    forall r, (r < ranks)%nat ->
      nth_error ps r = Some (map (fun e => (fst (fst e), snd e ++ snd (fst e))%list) (boundary_points M r (m_level m))).
Proof. exact C157_prepare_boundary_proof. Qed.
Print Assumptions C157_prepare_boundary.

(** Line by line, a file of values belongs to the newest file of points: rank by rank the same degrees of freedom in the same order, also after the mesh has been adapted. *)
Theorem C157_lines : forall pre k U post m ps,
  increasing None (pre ++ WriteOut k U :: post) ->
  distinct_names (last_maps pre (current qstate0)) ->
  In (m, ps) (interior (last_maps pre (current qstate0)) ++ boundary (last_maps pre (current qstate0))) ->
  m_instantaneous m = true ->
  let d := disk (run (pre ++ WriteOut k U :: post)) in
  (exists values, stored d (m_name m, k, Instantaneous) = Some values /\ length values = length ps /\
     forall r points, nth_error ps r = Some points -> nth_error values r = Some (map (fun p => U r (fst p)) points)) /\
  exists c, (c <= k)%nat /\ stored d (m_name m, c, Points) = Some (map (map snd) ps) /\
    forall c', (c < c' <= k)%nat -> stored d (m_name m, c', Points) = None.
Proof. exact C157_lines_proof. Qed.
Print Assumptions C157_lines.

(** The mesh is adapted after the second of three outputs. *)
Example C157_lines_ex :
  let pre := [Prepare (a_map 1); WriteOut 0 (fun _ _ => [7])] in
  let post := [Prepare (a_map 3); WriteOut 2 (fun _ _ => [9])] in
  increasing None (pre ++ WriteOut 1 (fun _ _ => [8]) :: post) /\ distinct_names (last_maps pre (current qstate0)) /\
  In (middle_manifold, [[(1%nat, [1])]; []]) (interior (last_maps pre (current qstate0)) ++ boundary (last_maps pre (current qstate0))) /\
  m_instantaneous middle_manifold = true /\
  stored (disk (run adapted)) ("middle"%string, 1%nat, Instantaneous) = Some [[[8]]; []] /\
  stored (disk (run adapted)) ("middle"%string, 0%nat, Points) = Some [[[1]]; []] /\
  stored (disk (run adapted)) ("middle"%string, 1%nat, Points) = None /\
  stored (disk (run adapted)) ("middle"%string, 2%nat, Points) = Some [[[3]]; []].
Proof. exact adapted_case. Qed.

(** ** What does not hold *)

(** A point at which the formula is not defined is taken to be on an interior manifold. *)
Theorem C157_nan_refuted :
  exists ranks G M owner (f : level_set), distributes ranks G M owner /\
  (exists g, occurs G g /\ f (pos G g) = None /\ In (gmass G g, pos G g) (all_points ranks M f)) /\
  (forall r, boundary_points M r f = []) /\ forall x, match f x with Some v => 1 < Rabs v | None => True end.
Proof. exact C157_nan_refuted_proof. Qed.
Print Assumptions C157_nan_refuted.

(** The files of an interior manifold are lost if a boundary manifold has its name. *)
Theorem C157_clash_refuted :
  exists p k U m ps,
  NoDup (map (fun e => m_name (fst e)) (interior p)) /\ NoDup (map (fun e => m_name (fst e)) (boundary p)) /\
  In (m, ps) (interior p) /\ m_instantaneous m = true /\
  let d := disk (run [Prepare p; WriteOut k U]) in
  (forall c, stored d (m_name m, c, Points) <> Some (map (map snd) ps)) /\
  forall values, stored d (m_name m, k, Instantaneous) = Some values -> nth_error values 0 <> Some (map (fun p => U 0%nat (fst p)) (hd [] ps)).
Proof. exact C157_clash_refuted_proof. Qed.
Print Assumptions C157_clash_refuted.

(** The second of two interior manifolds with the same name is silently ignored. *)
Theorem C157_ignored_refuted :
  exists ranks M (a b : manifold) U,
  m_name a = m_name b /\ m_instantaneous b = true /\ all_points ranks M (m_level b) <> [] /\
  let d := disk (run [Prepare (prepare ranks M [a; b] []); WriteOut 0 U]) in
  forall f x m, In f d -> snd (fst f) = Points -> In (m, x) (all_points ranks M (m_level b)) -> ~ In (x ++ [m])%list (concat (snd f)).
Proof. exact C157_ignored_refuted_proof. Qed.
Print Assumptions C157_ignored_refuted.
