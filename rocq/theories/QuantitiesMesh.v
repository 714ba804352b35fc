(** * Model: the points of the manifolds for which quantities are written

    source/quantities.template.h:84-334 and 429-459, 565-650.  Complements
    Quantities.v, which has the averages.  Simplifications: exact arithmetic; a file
    name is a triple of name, cycle and kind; a file holds for every rank its lines
    of numbers; maps are ordered as in the parameter file instead of by name. *)
From Coq Require Import Reals String List Bool Arith.
Import ListNotations.
Local Open Scope R_scope.

(** Point<dim>, source/quantities.template.h:131-147. *)
Definition position := list R.

(** A level set function: None is a NaN, which FunctionParser returns where the
    formula is not defined, e.g. for the square root of a negative number.
    source/quantities.template.h:118, 154, 204, 222. *)
Definition level_set := position -> option R.

(** The comparison of source/quantities.template.h:154: a point is skipped if the
    absolute value is larger than the tolerance; a comparison with NaN is false. *)
Definition selects_interior (f : level_set) (x : position) : bool :=
  match f x with
  | None => true
  | Some v => if Rlt_dec (1 / 10 ^ 12) (Rabs v) then false else true
  end.

(** The comparison of source/quantities.template.h:222. *)
Definition selects_boundary (f : level_set) (x : position) : bool :=
  match f x with
  | None => false
  | Some v => if Rlt_dec (Rabs v) (1 / 10 ^ 12) then true else false
  end.

(** What prepare() sees of the mesh: cells with their owner and their degrees of
    freedom, source/quantities.template.h:131-147; the partitioner and the number of
    locally owned indices, lines 158-168; the row lengths and lumped masses by local
    index, lines 164-171. *)
Record cell := { cell_owner : nat; cell_dofs : list (nat * position) }.
(** See the comment above, source/quantities.template.h:131-147. *)
Record mesh := {
  cells : list cell;
  to_local : nat -> nat -> nat;      (* rank, global index *)
  n_owned : nat -> nat;
  row_length : nat -> nat -> nat;
  mass : nat -> nat -> R;
  boundary_map : nat -> list (nat * list R * position);   (* index, normal and masses, position *)
  constrained : nat -> nat -> bool }.

(** The tuple interior_point, source/quantities.h:168-173: index, mass, position. *)
Definition interior_point := (nat * R * position)%type.

(** Assignment to an element of std::map<int, interior_point>, in the order of the
    keys, source/quantities.template.h:121 and 173. *)
Fixpoint assign (m : list interior_point) (p : interior_point) : list interior_point :=
  match m with
  | [] => [p]
  | q :: r => if Nat.ltb (fst (fst p)) (fst (fst q)) then p :: q :: r
              else if Nat.eqb (fst (fst p)) (fst (fst q)) then p :: r
              else q :: assign r p
  end.

(** The body of the loop over the degrees of freedom of a cell,
    source/quantities.template.h:143-174. *)
Definition visit_dof (M : mesh) (r : nat) (f : level_set) (m : list interior_point) (d : nat * position) : list interior_point :=
  let '(g, x) := d in
  if negb (selects_interior f x) then m
  else
    let index := to_local M r g in
    if Nat.eqb (row_length M r index) 1 then m
    else if Nat.leb (n_owned M r) index then m
    else assign m (index, mass M r index, x).

(** The loop over cells and the resulting vector, source/quantities.template.h:133-185. *)
Definition interior_map (M : mesh) (r : nat) (f : level_set) : list interior_point :=
  fold_left (fun m c => if Nat.eqb (cell_owner c) r then fold_left (visit_dof M r f) (cell_dofs c) m else m) (cells M) [].

(** The boundary maps, source/quantities.template.h:204-225. *)
Definition boundary_points (M : mesh) (r : nat) (f : level_set) : list (nat * list R * position) :=
  filter (fun e => let '(i, _, x) := e in
            negb (Nat.leb (n_owned M r) i) && negb (constrained M r i) && selects_boundary f x)%bool (boundary_map M r).

(** An entry of "interior manifolds" or "boundary manifolds" with its options,
    source/quantities.template.h:64-79. *)
Record manifold := { m_name : string; m_level : level_set; m_instantaneous : bool; m_time_averaged : bool }.

(** The points of a manifold on every rank: local index and what is written to the
    points file.  source/quantities.template.h:90-246. *)
Definition point_lists := list (list (nat * list R)).

(** interior_maps_ and boundary_maps_: std::inserter() does not replace an existing
    element, source/quantities.template.h:106-110, 197-202. *)
Fixpoint first_of (seen : list string) (l : list (manifold * point_lists)) : list (manifold * point_lists) :=
  match l with
  | [] => []
  | (m, p) :: r => if existsb (String.eqb (m_name m)) seen then first_of seen r else (m, p) :: first_of (m_name m :: seen) r
  end.

(** prepare(), source/quantities.template.h:90-246, on [ranks] ranks. *)
Record maps := { interior : list (manifold * point_lists); boundary : list (manifold * point_lists) }.
(** See the comment above, source/quantities.template.h:90-246. *)
Definition prepare (ranks : nat) (M : mesh) (im bm : list manifold) : maps :=
  {| interior := first_of [] (map (fun m => (m, map (fun r => map (fun p => (fst (fst p), snd p ++ [snd (fst p)])%list) (interior_map M r (m_level m))) (seq 0 ranks))) im);
     boundary := first_of [] (map (fun m => (m, map (fun r => map (fun e => (fst (fst e), snd e ++ snd (fst e))%list) (boundary_points M r (m_level m))) (seq 0 ranks))) bm) |}.

(** Files: "-points.dat" and "-instantaneous.dat".
    source/quantities.template.h:275-276, 317-318, 429-459. *)
Inductive file_kind := Points | Instantaneous.
(** Name, cycle and kind; source/quantities.template.h:275-276, 317-318, 585-625. *)
Definition file_name := (string * nat * file_kind)%type.
(** A file: for every rank its lines; source/quantities.template.h:275-276, 429-459. *)
Definition file := (file_name * list (list (list R)))%type.

(** write_mesh_files(), source/quantities.template.h:249-334, for one of the maps. *)
Definition mesh_files (cycle : nat) (l : list (manifold * point_lists)) : list file :=
  map (fun e => ((m_name (fst e), cycle, Points), map (map snd) (snd e)))
    (filter (fun e => m_instantaneous (fst e) || m_time_averaged (fst e))%bool l).

(** write_out() for the option "instantaneous", source/quantities.template.h:585-625
    and 429-459.  [U r i]: what is written for the state at the local index i of rank r. *)
Definition value_files (cycle : nat) (U : nat -> nat -> list R) (l : list (manifold * point_lists)) : list file :=
  map (fun e => ((m_name (fst e), cycle, Instantaneous),
                 map (fun rp => map (fun p => U (fst rp) (fst p)) (snd rp)) (combine (seq 0 (length (snd e))) (snd e))))
    (filter (fun e => m_instantaneous (fst e)) l).

(** Calls of prepare() and write_out().  [written]: mesh_files_have_been_written_.
    source/quantities.template.h:90-246, 565-682. *)
Inductive event := Prepare (p : maps) | WriteOut (cycle : nat) (U : nat -> nat -> list R).
(** The maps of points, mesh_files_have_been_written_ and the files; source/quantities.h:200-214. *)
Record qstate := { current : maps; written : bool; disk : list file }.
(** After construction, source/quantities.template.h:63. *)
Definition qstate0 : qstate := {| current := {| interior := []; boundary := [] |}; written := false; disk := [] |}.

(** source/quantities.template.h:90-246 and 565-682; a file that is written again is
    replaced (std::ofstream), see [stored]. *)
Definition perform (s : qstate) (e : event) : qstate :=
  match e with
  | Prepare p => {| current := p; written := false; disk := disk s |}
  | WriteOut cycle U =>
      let p := current s in
      let meshes := if written s then [] else (mesh_files cycle (interior p) ++ mesh_files cycle (boundary p))%list in
      {| current := p; written := true;
         disk := (disk s ++ meshes ++ value_files cycle U (interior p) ++ value_files cycle U (boundary p))%list |}
  end.
(** See the comment above, source/quantities.template.h:90-246. *)
Definition run (l : list event) : qstate := fold_left perform l qstate0.
