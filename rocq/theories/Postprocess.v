(** * Schlieren and vorticity plots

    source/postprocessor.template.h.  Rows are numbered globally; the ranks own
    disjoint lists of rows. *)
From Coq Require Import Reals String List Bool Arith.
From Verif Require Import RVec Extractor.
Import ListNotations.
Local Open Scope R_scope.

(** ** prepare() *)

(** The lookup of one name by the lambda populate: conserved names first,
    source/postprocessor.template.h:79-90; (is_primitive, index). *)
Definition lookup_quantity (t : tables) (entry : string) : option (bool * nat) :=
  match find_index entry (component_names t) with
  | Some k => Some (false, k)
  | None => match find_index entry (primitive_component_names t) with
            | Some k => Some (true, k)
            | None => None
            end
  end.

(** The lambda populate, source/postprocessor.template.h:74-95; [None]: the
    exception "Invalid component name". *)
Fixpoint populate (t : tables) (strings : list string) : option (list (bool * nat)) :=
  match strings with
  | [] => Some []
  | entry :: rest =>
      match lookup_quantity t entry with
      | Some q => match populate t rest with Some l => Some (q :: l) | None => None end
      | None => None
      end
  end.

(** component_names_, source/postprocessor.template.h:87,96-97. *)
Definition plot_names (schlieren vorticity : list string) : list string :=
  map (String.append "schlieren_") schlieren ++ map (String.append "vorticity_") vorticity.

(** ** compute() *)

(** The offline data used: stencils (of length one for constrained rows), c_ij,
    the lumped mass matrix, the affine constraints (without inhomogeneities) and
    the rows owned by each rank.  As used in source/postprocessor.template.h:119-276. *)
Record pmesh := {
  p_dim : nat;
  p_columns : nat -> list nat;
  p_c : nat -> nat -> vec;
  p_mass : nat -> R;
  p_constraint : nat -> list (nat * R);
  p_ranks : list (list nat) }.

(** Skip constrained degrees of freedom, source/postprocessor.template.h:160-163. *)
Definition p_constrained (M : pmesh) (i : nat) : bool := (length (p_columns M i) =? 1)%nat.

(** One entry of local_schlieren_values, source/postprocessor.template.h:149,155-156,165-179,197-204. *)
Definition schlieren_raw (M : pmesh) (f : nat -> R) (i : nat) : R :=
  let g := fold_left (fun (g : vec) j => vsub g (vscal (f j) (p_c M i j))) (p_columns M i) (fun _ => 0) in
  sqrt (norm2 (p_dim M) g) / p_mass M i.

(** cross_product_2d(c_ij) * q_j and cross_product_3d(c_ij, q_j) of deal.II, used in
    source/postprocessor.template.h:187-191. *)
Definition cross2 (c q : vec) : R := c 1%nat * q 0%nat + - c 0%nat * q 1%nat.
(** See the comment above, source/postprocessor.template.h:187-191. *)
Definition cross3 (c q : vec) : vec := fun k =>
  match k with
  | 0%nat => c 1%nat * q 2%nat - c 2%nat * q 1%nat
  | 1%nat => c 2%nat * q 0%nat - c 0%nat * q 2%nat
  | 2%nat => c 0%nat * q 1%nat - c 1%nat * q 0%nat
  | _ => 0
  end.

(** One entry of local_vorticity_values, source/postprocessor.template.h:150,157-158,165-167,182-193,206-210. *)
Definition vorticity_raw (M : pmesh) (q : nat -> vec) (i : nat) : R :=
  if (p_dim M =? 2)%nat then
    fold_left (fun g j => g - cross2 (p_c M i j) (q j)) (p_columns M i) 0 / p_mass M i
  else
    sqrt (norm2 3 (fold_left (fun (g : vec) j => vsub g (cross3 (p_c M i j) (q j))) (p_columns M i) (fun _ => 0)))
    / p_mass M i.

(** bounds_ and quantities_, source/postprocessor.h:166-167: pairs (q_max, q_min) and
    one scalar vector per quantity. *)
Record pstate := { p_bounds : list (R * R); p_quantities : list (nat -> R) }.

(** prepare() leaves no bounds and zero vectors, source/postprocessor.template.h:69,101-103. *)
Definition p_prepared (n_quantities : nat) : pstate :=
  {| p_bounds := []; p_quantities := repeat (fun _ => 0) n_quantities |}.

(** Step 1 for all quantities: constrained rows keep what the vectors contain,
    source/postprocessor.template.h:142-220. *)
Definition p_step1 (M : pmesh) (raws : list (nat -> R)) (old : list (nat -> R)) : list (nat -> R) :=
  map (fun ro => fun i => if p_constrained M i then snd ro i else fst ro i) (combine raws old).

(** Step 2 for one quantity, source/postprocessor.template.h:232-246: local loops and
    the reductions over the ranks; [big] is std::numeric_limits<Number>::max(). *)
Definition p_bound (M : pmesh) (big : R) (q : nat -> R) : R * R :=
  let q_max := map (fun rows => fold_left (fun m i => Rmax m (Rabs (q i))) rows 0) (p_ranks M) in
  let q_min := map (fun rows => fold_left (fun m i => Rmin m (Rabs (q i))) rows big) (p_ranks M) in
  (fold_right Rmax 0 q_max, fold_right Rmin big q_min).

(** Step 2, source/postprocessor.template.h:226-247. *)
Definition p_step2 (M : pmesh) (big : R) (recompute : bool) (bounds : list (R * R)) (qs : list (nat -> R)) : list (R * R) :=
  let bounds := if recompute then [] else bounds in
  if (length bounds =? length qs)%nat then bounds else map (p_bound M big) qs.

(** Step 3 for one value (std::copysign: the absolute value with the sign of q), source/postprocessor.template.h:258-266. *)
Definition p_scale (beta eps floor : R) (b : R * R) (q : R) : R :=
  let ratio := Rmax 0 (Rabs q - snd b - floor) / Rmax (fst b - snd b) eps in
  let magnitude := 1 - exp (- beta * ratio) in
  if Rlt_dec q 0 then - Rabs magnitude else Rabs magnitude.

(** Step 4, AffineConstraints::distribute, source/postprocessor.template.h:275-278
    (the entries of a constraint are unconstrained). *)
Definition p_distribute (M : pmesh) (q : nat -> R) : nat -> R :=
  fun i => if p_constrained M i then fold_left (fun s jw => s + snd jw * q (fst jw)) (p_constraint M i) 0 else q i.

(** compute() on the raw quantities, source/postprocessor.template.h:107-279; simplified:
    the values of ghost rows are those of their owners. *)
Definition p_compute (M : pmesh) (big beta eps floor : R) (recompute : bool) (raws : list (nat -> R)) (s : pstate) : pstate :=
  let qs := p_step1 M raws (p_quantities s) in
  let bounds := p_step2 M big recompute (p_bounds s) qs in
  {| p_bounds := bounds;
     p_quantities := map (fun bq => p_distribute M (fun i => p_scale beta eps floor (fst bq) (snd bq i))) (combine bounds qs) |}.

(** The accesses prim_j[index + d] and U_j[index + d] to a state with as many
    components as there are names, source/postprocessor.template.h:176-186; [None]: out
    of range (undefined behavior without debug checks). *)
Definition p_read (u prim : list R) (q : bool * nat) (d : nat) : option R :=
  nth_error (if fst q then prim else u) (snd q + d).

(** The vector q_j of a vorticity quantity, source/postprocessor.template.h:183-185. *)
Fixpoint p_read_vector (u prim : list R) (q : bool * nat) (dim : nat) : option (list R) :=
  match dim with
  | 0%nat => Some []
  | S d => match p_read_vector u prim q d, p_read u prim q d with
           | Some l, Some x => Some (l ++ [x])
           | _, _ => None
           end
  end.

(** ** Bounds across output cycles *)

(** reset_bounds(), source/postprocessor.h:112-115. *)
Definition p_reset_bounds (s : pstate) : pstate := {| p_bounds := []; p_quantities := p_quantities s |}.

(** The use in TimeLoop::output, source/time_loop.template.h:865-872. *)
Definition p_output (M : pmesh) (big beta eps floor : R) (recompute : bool) (raws : list (nat -> R)) (cycle : nat) (s : pstate) : pstate :=
  let s := p_compute M big beta eps floor recompute raws s in
  if (cycle =? 0)%nat then p_reset_bounds s else s.
