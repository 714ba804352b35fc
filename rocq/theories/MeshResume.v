(** * Model: creation of the mesh, and the mesh of a resumed run

    Discretization::prepare creates the coarse mesh of the selected geometry, refines it and
    distorts it; a checkpoint stores the forest of refinements but no positions of vertices
    (dealii::parallel::distributed::Triangulation::save, load).  New vertices are
    placed by the multilinear map of the cell (dealii's flat manifold; the curved manifolds are the
    subject of C146).  The random displacements are an arbitrary function of the position; the same vertex
    is displaced in the same way from every cell.  Not modelled: ranks, and the mesh that is
    written to a file. *)
From Coq Require Import Reals List Arith Bool String.
From Verif Require Import RVec Discretization MeshTransfer.
Import ListNotations.
Local Open Scope R_scope.

(** A cell by the coordinates of its 2^dim vertices: number of the vertex, coordinate;
    dealii::Triangulation, source/discretization.template.h:88. *)
Definition cell := nat -> nat -> R.

(** A cell with its descendants, source/discretization.template.h:88. *)
Inductive mesh := active (V : cell) | parent (V : cell) (s : nat -> mesh).

(** What a checkpoint stores of the mesh, source/time_loop.template.h:585. *)
Inductive forest := stop | split (f : nat -> forest).

Section Mesh.
Variable dim : nat.

(** The vertices of son [c], source/discretization.template.h:120. *)
Definition son_cell (V : cell) (c : nat) : cell := prolongate cg_q1 dim V c.

(** triangulation.refine_global(1): every active cell gets sons,
    source/discretization.template.h:120. *)
Fixpoint refine_all (m : mesh) : mesh :=
  match m with
  | active V => parent V (fun c => active (son_cell V c))
  | parent V s => parent V (fun c => refine_all (s c))
  end.
(** See the comment above, source/discretization.template.h:120. *)
Fixpoint refine_global (n : nat) (m : mesh) : mesh :=
  match n with O => m | S k => refine_global k (refine_all m) end.

(** dealii::GridTools::distort_random: the vertices of the active cells are displaced,
    source/discretization.template.h:122-124.  The vertices of a parent stay where they were. *)
Fixpoint displace (move : (nat -> R) -> nat -> R) (m : mesh) : mesh :=
  match m with
  | active V => active (fun v => move (V v))
  | parent V s => parent V (fun c => displace move (s c))
  end.

(** The search for the geometry, source/discretization.template.h:90-105; [None] is the
    exception of lines 101-104. *)
Fixpoint create_triangulation (geometry_list : list (string * list cell)) (geometry : string) : option (list mesh) :=
  match geometry_list with
  | [] => None
  | (name, cells) :: rest => if String.eqb name geometry then Some (map active cells) else create_triangulation rest geometry
  end.

(** Discretization::prepare, source/discretization.template.h:81-124. *)
Definition prepare (geometry_list : list (string * list cell)) (geometry : string) (refinement : nat)
    (mesh_distortion : R) (move : (nat -> R) -> nat -> R) : option (list mesh) :=
  match create_triangulation geometry_list geometry with
  | None => None
  | Some coarse =>
      let refined := map (refine_global refinement) coarse in
      Some (if Rlt_dec (1 / 10 ^ 10) (Rabs mesh_distortion) then map (displace move) refined else refined)
  end.

(** execute_coarsening_and_refinement, source/time_loop.template.h:666; flags as in
    [MeshTransfer.adapt]. *)
Definition is_active (m : mesh) : bool := match m with active _ => true | parent _ _ => false end.
(** See the comment above, source/time_loop.template.h:666. *)
Fixpoint adapt_mesh (flags : list nat -> flag) (m : mesh) : mesh :=
  match m with
  | active V => match flags [] with refine => parent V (fun c => active (son_cell V c)) | _ => active V end
  | parent V s =>
      if forallb (fun c => is_active (s c) && is_coarsen (flags [c])) (seq 0 (2 ^ dim)) then active V
      else parent V (fun c => adapt_mesh (fun way => flags (c :: way)) (s c))
  end.

(** triangulation.save, source/time_loop.template.h:593 *)
Fixpoint save (m : mesh) : forest :=
  match m with active _ => stop | parent _ s => split (fun c => save (s c)) end.

(** triangulation.load on one coarse cell, source/time_loop.template.h:465 *)
Fixpoint load (V : cell) (f : forest) : mesh :=
  match f with stop => active V | split g => parent V (fun c => load (son_cell V c) (g c)) end.
End Mesh.

(** The vertices of the coarse cell.
    The coarse mesh that source/geometry_*.h create and source/time_loop.template.h:464 creates again. *)
Definition vertices (m : mesh) : cell := match m with active V => V | parent V _ => V end.

(** load on all coarse cells; [None] if their number differs (deal.II throws an exception),
    source/time_loop.template.h:465. *)
Fixpoint load_all (dim : nat) (coarse : list mesh) (fs : list forest) : option (list mesh) :=
  match coarse, fs with
  | [], [] => Some []
  | m :: coarse', f :: fs' =>
      match load_all dim coarse' fs' with Some r => Some (load dim (vertices m) f :: r) | None => None end
  | _, _ => None
  end.

(** read_checkpoint: the refinement is set to zero, the coarse mesh prepared and the forest loaded,
    source/time_loop.template.h:460-468. *)
Definition read_mesh (dim : nat) (geometry_list : list (string * list cell)) (geometry : string)
    (mesh_distortion : R) (move : (nat -> R) -> nat -> R) (fs : list forest) : option (list mesh) :=
  match prepare dim geometry_list geometry 0 mesh_distortion move with
  | None => None
  | Some coarse => load_all dim coarse fs
  end.

(** The mesh of a run: preparation, then any adaptations (the flags of each coarse cell),
    source/time_loop.template.h:278, 360-378. *)
Definition run_mesh (dim : nat) (geometry_list : list (string * list cell)) (geometry : string) (refinement : nat)
    (mesh_distortion : R) (move : (nat -> R) -> nat -> R) (adaptations : list (nat -> list nat -> flag)) : option (list mesh) :=
  match prepare dim geometry_list geometry refinement mesh_distortion move with
  | None => None
  | Some coarse =>
      Some (fold_left (fun ms flags => map (fun '(k, m) => adapt_mesh dim (flags k) m) (combine (seq 0 (List.length ms)) ms)) adaptations coarse)
  end.
