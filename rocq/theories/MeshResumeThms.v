(** * Property theorems: the mesh of a resumed run (C151) *)
From Coq Require Import Reals String List Arith Lia Lra.
From Verif Require Import RVec Discretization MeshTransfer MeshTransferSpec MeshResume MeshResumeSpec MeshResumeProofs.
Import ListNotations.
Local Open Scope R_scope.

(** Without distortion a resumed run has exactly the mesh of the run that wrote the checkpoint, after
    any adaptations. *)
Theorem C151_resume :
  forall dim geometries geometry refinement distortion move move' adaptations ms,
  Rabs distortion <= 1 / 10 ^ 10 ->
  run_mesh dim geometries geometry refinement distortion move adaptations = Some ms ->
  read_mesh dim geometries geometry distortion move' (map save ms) = Some ms.
Proof. exact C151_resume_proof. Qed.
Print Assumptions C151_resume.

(** The unit square, refined three times, then partly coarsened and refined. *)
Example C151_resume_ex :
  Rabs 0 <= 1 / 10 ^ 10 /\
  exists ms, run_mesh 2 squares "unit square" 3 0 bump [fun _ way => match way with [] => keep | [0%nat; 1%nat; 1%nat] => refine | _ => coarsen end] = Some ms /\ ms <> [].
Proof. exact square_case. Qed.

(** With distortion it has not, even if the displacements of both runs are given by the same function. *)
Theorem C151_distorted_refuted :
  exists dim geometries geometry refinement distortion move ms ms',
  run_mesh dim geometries geometry refinement distortion move [] = Some ms /\
  read_mesh dim geometries geometry distortion move (map save ms) = Some ms' /\
  exists k m m' x d, nth_error ms k = Some m /\ nth_error ms' k = Some m' /\ place_of dim m x d <> place_of dim m' x d.
Proof. exact C151_distorted_refuted_proof. Qed.
Print Assumptions C151_distorted_refuted.

(** The preparation fails exactly for names that no geometry has. *)
Theorem C151_unknown :
  forall dim geometries geometry refinement distortion move,
  prepare dim geometries geometry refinement distortion move = None <-> ~ In geometry (map fst geometries).
Proof. exact C151_unknown_proof. Qed.
Print Assumptions C151_unknown.

(** Refinement n times gives 2^(n dim) cells for each coarse cell, which together are the coarse
    cell: a point of the coarse cell is at the same place in the refined mesh. *)
Theorem C151_refined :
  forall dim geometries geometry refinement move,
  forall ms, prepare dim geometries geometry refinement 0 move = Some ms ->
  exists cells, In (geometry, cells) geometries /\ List.length ms = List.length cells /\
    forall k V m, nth_error cells k = Some V -> nth_error ms k = Some m ->
      List.length (active_cells dim m) = (2 ^ (refinement * dim))%nat /\
      forall x d, place_of dim m x d = cell_value cg_q1 dim V x d.
Proof. exact C151_refined_proof. Qed.
Print Assumptions C151_refined.

(** In an adaptation every active cell obeys its own mark: it stays as it is, gets sons, or is replaced by
    its parent if all brothers are marked for coarsening, *)
Theorem C151_marks :
  forall dim flags m way V, way_in dim way -> cell_at m way = Some (active V) ->
  let m' := adapt_mesh dim flags m in
  (flags way = keep -> cell_at m' way = Some (active V)) /\
  (flags way = refine -> exists s, cell_at m' way = Some (parent V s) /\ forall c, (c < 2 ^ dim)%nat -> exists W, s c = active W) /\
  (flags way = coarsen -> cell_at m' way = Some (active V) \/
     exists up c W s, way = (up ++ [c])%list /\ all_removed dim flags m up /\ cell_at m up = Some (parent W s) /\ cell_at m' up = Some (active W)).
Proof. exact C151_marks_proof. Qed.
Print Assumptions C151_marks.

(** which then takes place. *)
Theorem C151_merge :
  forall dim flags m way, way_in dim way -> all_removed dim flags m way ->
  exists W s, cell_at m way = Some (parent W s) /\ cell_at (adapt_mesh dim flags m) way = Some (active W).
Proof. exact C151_merge_proof. Qed.
Print Assumptions C151_merge.

(** A square with seven cells. *)
Example C151_marks_ex :
  let m := parent square (fun c => if Nat.eqb c 1 then parent (son_cell 2 square 1) (fun d => active (son_cell 2 (son_cell 2 square 1) d)) else active (son_cell 2 square c)) in
  let flags := fun way => match way with [0%nat] => refine | [1%nat; _] => coarsen | _ => keep end in
  way_in 2 [0%nat] /\ cell_at m [0%nat] = Some (active (son_cell 2 square 0)) /\ way_in 2 [1%nat] /\ all_removed 2 flags m [1%nat].
Proof. exact cells_case. Qed.

(** A checkpoint is rejected exactly if its number of coarse cells is not the one of the geometry. *)
Theorem C151_mismatch :
  forall dim geometries geometry cells distortion move fs,
  NoDup (map fst geometries) -> In (geometry, cells) geometries ->
  (read_mesh dim geometries geometry distortion move fs = None <-> List.length fs <> List.length cells).
Proof. exact C151_mismatch_proof. Qed.
Print Assumptions C151_mismatch.

(** Two coarse cells for the unit square. *)
Example C151_mismatch_ex :
  NoDup (map fst squares) /\ In ("unit square"%string, [square]) squares /\ List.length [stop; stop] <> List.length [square].
Proof. exact mismatch_case. Qed.
