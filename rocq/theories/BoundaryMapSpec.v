(** * The boundary map: what is required *)
From Coq Require Import Reals Arith List Bool.
From Verif Require Import RVec SchemeSpec BoundaryMap.
Import ListNotations.
Local Open Scope R_scope.

(** The integral of a shape function over a face, and of the shape function times the
    unit normal. *)
Definition mass_of (q : list (R * R * vec)) : R := lsum (fun '(phi, JxW, _) => phi * JxW) q.
Definition normal_of (q : list (R * R * vec)) : vec := fun x => lsum (fun '(phi, JxW, n) => phi * JxW * n x) q.

(** The boundary contributions: index and data of each visited pair of a boundary face
    that is not periodic and an owned, unconstrained degree of freedom of the face. *)
Definition contributes (n_owned : nat) (v : visit) : bool :=
  v_at_boundary v && v_support v && negb (v_artificial v) && negb (Nat.eqb (v_id v) 1) &&
  Nat.ltb (v_index v) n_owned && negb (Nat.eqb (v_row_length v) 1).
Definition contributions (n_owned : nat) (visits : list visit) : list (nat * boundary_data) :=
  map (fun v => (v_index v, BData (normal_of (v_quadrature v)) (mass_of (v_quadrature v)) (mass_of (v_quadrature v)) (v_id v) (v_position v)))
    (filter (contributes n_owned) visits).

(** How many contributions a degree of freedom has. *)
Definition ccount (k : nat) (l : list (nat * boundary_data)) : nat := length (filter (fun e => Nat.eqb (fst e) k) l).

(** The id of an entry is that of its contributions; in two dimensions slip may have
    become no slip. *)
Definition same_id (dim a b : nat) : Prop := a = b \/ (dim = 2%nat /\ a = id_slip /\ b = id_no_slip).

(** Contributions on rays: each normal is a positive multiple of one of the given unit
    directions (e.g. the normals of the sides of a box); two different directions
    enclose an angle of at least 60 degrees. *)
Definition on_rays (dim : nat) (D : nat -> vec) (ray : boundary_data -> nat) (l : list (nat * boundary_data)) : Prop :=
  (forall e, In e l -> norm2 dim (D (ray (snd e))) = 1) /\
  (forall e e', In e l -> In e' l -> ray (snd e) <> ray (snd e') -> dot dim (D (ray (snd e))) (D (ray (snd e'))) <= 1 / 2) /\
  forall e, In e l -> exists c, 0 < c /\ forall x, (x < dim)%nat -> b_normal (snd e) x = c * D (ray (snd e)) x.

(** The sum over the contributions with a given index, id and ray. *)
Definition ray_key (ray : boundary_data -> nat) (e : nat * boundary_data) : nat * nat * nat := (fst e, b_id (snd e), ray (snd e)).
Definition key_eqb (a b : nat * nat * nat) : bool :=
  let '(a1, a2, a3) := a in let '(b1, b2, b3) := b in Nat.eqb a1 b1 && Nat.eqb a2 b2 && Nat.eqb a3 b3.
Definition ray_sum (ray : boundary_data -> nat) (key : nat * nat * nat) (f : boundary_data -> R) (l : list (nat * boundary_data)) : R :=
  lsum (fun e => if key_eqb (ray_key ray e) key then f (snd e) else 0) l.

(** A degree of freedom on the boundary, as seen by a rank: it belongs to a boundary face,
    not periodic, of a cell the rank knows. *)
Definition on_boundary (n_relevant : nat) (visits : list face_visit) (j : nat) : Prop :=
  (j < n_relevant)%nat /\ exists v, In v visits /\ f_artificial v = false /\ f_at_boundary v = true /\ f_id v <> 1%nat /\ f_support v = true /\ f_index v = j.
