(** * Property theorems: vtu output (C134) *)
From Coq Require Import Reals String List Arith Bool.
From Verif Require Import RVec VtuOutput VtuOutputSpec VtuOutputProofs.
Import ListNotations.
Local Open Scope R_scope.

(** A call writes the full output if asked to, and the level set output if asked to and a level
    set is configured; nothing else. *)
Theorem C134_files :
  forall p name cycle full level c f,
  In (c, f) (schedule_output p name cycle full level) <->
  (c = all_cells /\ full = true /\ f = full_name p name cycle) \/
  (c = near_levelsets /\ level = true /\ manifolds p <> [] /\ f = levelset_name p name cycle).
Proof. exact C134_files_proof. Qed.
Print Assumptions C134_files.

(** The names. *)
Example C134_files_ex :
  forall f,
  schedule_output {| use_mpi_io := true; manifolds := [f] |} (solution_name "run") 12 true true =
  [(all_cells, Some "run-solution_000012.vtu"%string); (near_levelsets, Some "run-solution-levelsets_000012.vtu"%string)].
Proof. exact C134_files_ex_proof. Qed.

(** No file of a run is written twice: the file name determines solution or analytic solution, the
    output number and the kind of output (numbers of more than six digits included). *)
Theorem C134_names :
  forall p base (an1 an2 : bool) cycle1 cycle2 full1 full2 level1 level2 c1 c2 file,
  In (c1, Some file) (schedule_output p (if an1 then analytic_name base else solution_name base) cycle1 full1 level1) ->
  In (c2, Some file) (schedule_output p (if an2 then analytic_name base else solution_name base) cycle2 full2 level2) ->
  an1 = an2 /\ cycle1 = cycle2 /\ c1 = c2.
Proof. exact C134_names_proof. Qed.
Print Assumptions C134_names.

(** Output numbers are written with six digits, or with all their digits if there are more. *)
Theorem C134_width :
  forall p name cycle full level c file, In (c, Some file) (schedule_output p name cycle full level) ->
  String.length file = (String.length name + String.length (match c with all_cells => "" | near_levelsets => "-levelsets" end)%string +
    1 + Nat.max 6 (String.length (DecimalString.NilEmpty.string_of_uint (Nat.to_uint cycle))) + 4)%nat.
Proof. exact C134_width_proof. Qed.
Print Assumptions C134_width.

(** The selection: a vertex not below and a vertex not above some level set. *)
Theorem C134_selected :
  forall eps fs c,
  selected eps fs c = true <->
  is_active c = true /\ is_artificial c = false /\
  exists f v v', In f fs /\ In v (vertices c) /\ In v' (vertices c) /\ - (100 * eps) <= f v /\ f v' <= 100 * eps.
Proof. exact C134_selected_proof. Qed.
Print Assumptions C134_selected.

(** Planes and convex cells: exactly the cells that contain a point of the plane (up to 100
    machine epsilon) are written. *)
Theorem C134_plane :
  forall eps dim c a cl,
  0 <= eps -> is_active cl = true -> is_artificial cl = false ->
  selected eps [plane dim c a] cl = true <->
  exists x, hull dim (vertices cl) x /\ Rabs (plane dim c a x) <= 100 * eps.
Proof. exact C134_plane_proof. Qed.
Print Assumptions C134_plane.

(** A plane through the unit square and one beside it. *)
Example C134_plane_ex :
  forall eps, 0 <= eps < 1 / 1000 ->
  selected eps [plane 2 (- (1 / 3)) (fun k => if (k =? 0)%nat then 1 else 0)] square = true /\
  selected eps [plane 2 (- (3)) (fun k => if (k =? 0)%nat then 1 else 0)] square = false.
Proof. exact C134_plane_ex_proof. Qed.

(** Any level set function that is continuous on the cell: a cell that is written contains a point
    of one of the level sets. *)
Theorem C134_level :
  forall eps fs cl (K : vec -> Prop),
  0 <= eps -> (forall v, In v (vertices cl) -> K v) ->
  (forall f v v', In f fs -> In v (vertices cl) -> In v' (vertices cl) -> joined K f v v') ->
  selected eps fs cl = true ->
  exists f x, In f fs /\ K x /\ Rabs (f x) <= 100 * eps.
Proof. exact C134_level_proof. Qed.
Print Assumptions C134_level.

(** A parabola through the unit square. *)
Example C134_level_ex :
  forall v v', In v (vertices square) -> In v' (vertices square) ->
  joined (fun _ => True) (fun x => x 1%nat - x 0%nat * x 0%nat - 1 / 3) v v' /\
  selected 0 [fun x => x 1%nat - x 0%nat * x 0%nat - 1 / 3] square = true.
Proof. exact C134_level_ex_proof. Qed.

(** The converse fails: a level set that lies inside of a cell, or enters it through a single face,
    is missed although the parameter promises "cells that intersect the given level set". *)
Theorem C134_curved_refuted :
  exists (f : vec -> R) cl x, is_active cl = true /\ is_artificial cl = false /\
  hull 2 (vertices cl) x /\ f x = 0 /\ forall eps, 0 <= eps < 1 / 1000 -> selected eps [f] cl = false.
Proof. exact C134_curved_refuted_proof. Qed.
Print Assumptions C134_curved_refuted.

(** Several ranks: the cells written by all ranks together are the selected cells. *)
Theorem C134_owner :
  forall eps fs known shape owner ranks cells k,
  (forall k, known (owner k) k = true) -> (forall k, In (owner k) ranks) -> In k cells ->
  (exists f v v', In f fs /\ In v (shape k) /\ In v' (shape k) /\ - (100 * eps) <= f v /\ f v' <= 100 * eps) <->
  In k (flat_map (fun r => written eps fs known shape r cells) ranks).
Proof. exact C134_owner_proof. Qed.
Print Assumptions C134_owner.

(** But ghost cells are written too, so cells are written several times. *)
Theorem C134_twice_refuted :
  exists eps fs known shape owner ranks cells,
  NoDup ranks /\ NoDup cells /\ (forall k, known (owner k) k = true) /\ (forall k, In (owner k) ranks) /\
  ~ NoDup (flat_map (fun r => written eps fs known shape r cells) ranks).
Proof. exact C134_twice_refuted_proof. Qed.
Print Assumptions C134_twice_refuted.
