(** * Model: mesh adaptation and transfer of the state

    TimeLoop::adapt_mesh_and_transfer_state_vector marks cells, refines and coarsens the
    mesh and hands the components of the state to dealii::SolutionTransfer.  The
    sequence of calls is modelled; what deal.II does is modelled as it is documented: a
    refined cell has 2^dim sons, new nodal values are the values of the old function
    (dealii::SolutionTransfer), and when 2^dim sons are replaced by their parent, FE_Q takes the
    value of the function on the sons in the nodes of the parent while FE_DGQ projects
    (an arbitrary function [restrict] here).  Cells are boxes.  The mesh is a forest, as in
    dealii::parallel::distributed::Triangulation; values are kept per cell, so that a
    value shared by several cells occurs several times.  Not modelled: which cells deal.II
    marks in addition to keep the mesh graded (the flags are arbitrary) and the random
    numbers. *)
From Coq Require Import Reals List Arith Bool.
From Verif Require Import RVec Discretization.
Import ListNotations.
Local Open Scope R_scope.

(** cell->set_refine_flag(), cell->set_coarsen_flag(), source/mesh_adaptor.template.h:169-173,
    192-196 *)
Inductive flag := keep | refine | coarsen.

(** A cell with its descendants.  A cell without sons carries its nodal values, number and component;
    source/time_loop.template.h:637-688. *)
Inductive tree := leaf (U : nat -> nat -> R) | sons (s : nat -> tree).

(** mark_cells_for_coarsening_and_refinement, source/mesh_adaptor.template.h:151-203: the flag of
    each cell, given by the way to it from the coarse cell.  [None] stands for the strategy
    global_refinement (lines 167-173), [Some f] for random_adaptation with the flags [f]
    that refine_and_coarsen_fixed_number sets (lines 175-196). *)
Definition mark (strategy : option (list nat -> flag)) : list nat -> flag :=
  match strategy with
  | None => fun _ => refine
  | Some f => f
  end.

Section Transfer.
Variables (a : ansatz) (dim : nat).
Let p := degree a.

(** The number of nodal values of a cell, offline_data.dof_handler(),
    source/time_loop.template.h:637. *)
Definition n_values : nat := (S p ^ dim)%nat.

(** The node of a shape function in the unit cell, source/discretization.template.h:126-148. *)
Definition node (i k : nat) : R := lobatto_point (S p) (digit (S p) i k).

(** The shape functions of the unit cell, source/discretization.template.h:126-148. *)
Definition shape_at (i : nat) (x : nat -> R) : R :=
  rprod dim (fun k => peval (lagrange p (digit (S p) i k)) (x k)).

(** The function with the nodal values [U], component [v]; it is what
    source/time_loop.template.h:660, 683 transfers. *)
Definition cell_value (U : nat -> nat -> R) (x : nat -> R) (v : nat) : R :=
  rsum n_values (fun i => U i v * shape_at i x).

(** Bit k of the number of a son tells on which side of the parent it is in direction k:
    triangulation.execute_coarsening_and_refinement(), source/time_loop.template.h:666. *)
Definition in_parent (c : nat) (x : nat -> R) : nat -> R := fun k => (INR (digit 2 c k) + x k) / 2.
(** See the comment above, source/time_loop.template.h:666. *)
Definition in_son (c : nat) (x : nat -> R) : nat -> R := fun k => 2 * x k - INR (digit 2 c k).

(** The son that contains a point.  deal.II, as needed by source/time_loop.template.h:666. *)
Fixpoint son_of (d : nat) (x : nat -> R) : nat :=
  match d with
  | O => 0%nat
  | S k => ((if Rlt_dec (1 / 2) (x k) then 1 else 0) * 2 ^ k + son_of k x)%nat
  end.

(** solution_transfer.interpolate on a refined cell: the values of the old function in the
    nodes of the son, source/time_loop.template.h:660, 666, 683. *)
Definition prolongate (U : nat -> nat -> R) (c : nat) : nat -> nat -> R :=
  fun i v => cell_value U (in_parent c (node i)) v.

(** ... and on a cell whose sons were removed, continuous elements: the value of the old
    function in the nodes of the parent, source/time_loop.template.h:660, 666, 683. *)
Definition inject (s : nat -> nat -> nat -> R) : nat -> nat -> R :=
  fun i v => let c := son_of dim (node i) in cell_value (s c) (in_son c (node i)) v.

(** The nodal values of a cell without sons.
    deal.II, as needed by source/time_loop.template.h:660, 666, 683. *)
Definition values (t : tree) : nat -> nat -> R := match t with leaf U => U | sons _ => fun _ _ => 0 end.
(** See the comment above, source/time_loop.template.h:660, 666, 683. *)
Definition is_leaf (t : tree) : bool := match t with leaf _ => true | sons _ => false end.
(** See the comment above, source/time_loop.template.h:660, 666, 683. *)
Definition is_coarsen (m : flag) : bool := match m with coarsen => true | _ => false end.

(** adapt_mesh_and_transfer_state_vector, source/time_loop.template.h:614-689: marked cells get
    sons, and a cell loses its sons if all of them are active and marked
    (prepare_coarsening_and_refinement, line 625). *)
Fixpoint adapt (restrict : (nat -> nat -> nat -> R) -> nat -> nat -> R) (m : list nat -> flag) (t : tree) : tree :=
  match t with
  | leaf U => match m [] with refine => sons (fun c => leaf (prolongate U c)) | _ => leaf U end
  | sons s =>
      if forallb (fun c => is_leaf (s c) && is_coarsen (m [c])) (seq 0 (2 ^ dim))
      then leaf (restrict (fun c => values (s c)))
      else sons (fun c => adapt restrict (fun way => m (c :: way)) (s c))
  end.

(** Several adaptations one after the other, source/time_loop.template.h:360-378. *)
Definition adaptations (restrict : (nat -> nat -> nat -> R) -> nat -> nat -> R)
    (ms : list (list nat -> flag)) (t : tree) : tree :=
  fold_left (fun t m => adapt restrict m t) ms t.
End Transfer.
