(** * Files and cells of the vtu output

    source/vtu_output.template.h and its call in source/time_loop.template.h.  A point is a
    coordinate vector, a level set function an arbitrary real function of points (muparser is not
    modelled). *)
From Coq Require Import Reals String List Ascii Arith Bool Decimal DecimalString.
From Verif Require Import RVec.
Import ListNotations.
Local Open Scope R_scope.

(** Utilities::to_string(number, digits) of deal.II: decimal, filled up with zeros from the
    left (deal.II is not part of the repository).
    Called in source/vtu_output.template.h:148, 195. *)
Definition zeros (n : nat) : string := string_of_list_ascii (repeat "0"%char n).
(** The same function of deal.II, called in source/vtu_output.template.h:148, 195. *)
Definition decimal_padded (digits n : nat) : string :=
  let s := NilEmpty.string_of_uint (Nat.to_uint n) in
  (zeros (digits - String.length s) ++ s)%string.

(** The parameters "use mpi io" and "manifolds", source/vtu_output.template.h:39-50. *)
Record vparameters := { use_mpi_io : bool; manifolds : list (vec -> R) }.

(** The file names of schedule_output with MPI IO, source/vtu_output.template.h:146-149 and
    192-195; without MPI IO deal.II composes the names of the record and the pieces (not
    modelled, [None]). *)
Definition full_name (p : vparameters) (name : string) (cycle : nat) : option string :=
  if use_mpi_io p then Some (name ++ "_" ++ decimal_padded 6 cycle ++ ".vtu")%string else None.
(** See the comment above, source/vtu_output.template.h:146-149. *)
Definition levelset_name (p : vparameters) (name : string) (cycle : nat) : option string :=
  if use_mpi_io p then Some (name ++ "-levelsets_" ++ decimal_padded 6 cycle ++ ".vtu")%string else None.

(** What a call of schedule_output writes: all cells, source/vtu_output.template.h:142-154, or
    the selected ones, lines 156-201. *)
Inductive content := all_cells | near_levelsets.
(** See the comment above, source/vtu_output.template.h:142-154. *)
Definition schedule_output (p : vparameters) (name : string) (cycle : nat) (output_full output_levelsets : bool)
  : list (content * option string) :=
  (if output_full then [(all_cells, full_name p name cycle)] else []) ++
  (if output_levelsets && negb (Nat.eqb (List.length (manifolds p)) 0) then [(near_levelsets, levelset_name p name cycle)] else []).

(** The two calls of a timer tick, source/time_loop.template.h:317,333 (output, lines 848-876,
    passes its arguments on). *)
Definition solution_name (base : string) : string := (base ++ "-solution")%string.
(** See the comment above, source/time_loop.template.h:317,333. *)
Definition analytic_name (base : string) : string := (base ++ "-analytic_solution")%string.

(** A cell as a rank sees it.  As used in source/vtu_output.template.h:167-188. *)
Record cell := { vertices : list vec; is_active : bool; is_artificial : bool }.

(** The loop over the vertices for one function, source/vtu_output.template.h:173-185; [eps] is
    machine epsilon; returns whether the lambda returns true in it. *)
Fixpoint vertex_loop (eps : R) (f : vec -> R) (vs : list vec) (above below : nat) : bool :=
  match vs with
  | [] => false
  | v :: rest =>
      let above := if Rge_dec (f v) (0 - 100 * eps) then S above else above in
      let below := if Rle_dec (f v) (0 + 100 * eps) then S below else below in
      if (0 <? above)%nat && (0 <? below)%nat then true else vertex_loop eps f rest above below
  end.

(** The cell selection, source/vtu_output.template.h:167-188. *)
Definition selected (eps : R) (fs : list (vec -> R)) (c : cell) : bool :=
  if negb (is_active c) || is_artificial c then false
  else (fix functions (fs : list (vec -> R)) : bool :=
          match fs with
          | [] => false
          | f :: rest => if vertex_loop eps f (vertices c) 0 0 then true else functions rest
          end) fs.

(** The cells that the ranks write.  deal.II hands every rank the cells it knows to the selection;
    those of other ranks' interiors are artificial.  [known r c]: c is owned by r or is one of its
    ghost cells.  source/vtu_output.template.h:156-201. *)
Definition written (eps : R) (fs : list (vec -> R)) (known : nat -> nat -> bool) (shape : nat -> list vec) (rank : nat)
    (cells : list nat) : list nat :=
  filter (fun k => selected eps fs {| vertices := shape k; is_active := true; is_artificial := negb (known rank k) |}) cells.
