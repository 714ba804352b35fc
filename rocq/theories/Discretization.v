(** * Model: finite elements and quadratures of the discretization

    Discretization::prepare selects for each ansatz a finite element, a mapping and
    quadratures of deal.II.  The selection is modelled ([degree], [n_gauss]);
    FE_Q, FE_DGQ, QGauss, QGaussLobatto and QMidpoint are modelled by what they
    are documented to be: Lagrange polynomials in the Gauss-Lobatto points, Gauss
    rules, and tensor products of these.  Cells are boxes, on which all mappings
    are affine.  Local degrees of freedom are numbered lexicographically (FE_Q has
    another order; nothing below depends on it). *)
From Coq Require Import Reals List Arith Bool.
From Verif Require Import RVec.
Import ListNotations.
Local Open Scope R_scope.

(** source/discretization.h:131-152 *)
Inductive ansatz := cg_q1 | cg_q2 | cg_q3 | dg_q0 | dg_q1 | dg_q2 | dg_q3.

(** The degree of the finite element, source/discretization.template.h:126-148 *)
Definition degree (a : ansatz) : nat :=
  match a with
  | cg_q1 => 1 | cg_q2 => 2 | cg_q3 => 3
  | dg_q0 => 0 | dg_q1 => 1 | dg_q2 => 2 | dg_q3 => 3
  end.

(** The number of points of quadrature_, quadrature_1d_ and face_quadrature_ in each
    direction, source/discretization.template.h:150-190 *)
Definition n_gauss (a : ansatz) : nat :=
  match a with
  | dg_q0 => 1
  | cg_q1 | dg_q1 => 2
  | cg_q2 | dg_q2 => 3
  | cg_q3 | dg_q3 => 4
  end.

(** The number of points of face_nodal_quadrature_ in each direction,
    source/discretization.template.h:156-159, 168-169, 178-179, 188-189 *)
Definition n_lobatto (a : ansatz) : nat :=
  match a with
  | dg_q0 => 1
  | cg_q1 | dg_q1 => 2
  | cg_q2 | dg_q2 => 3
  | cg_q3 | dg_q3 => 4
  end.

(** ** Polynomials in one variable: coefficients, constant term first *)

(** Evaluation; dealii::Polynomials::Polynomial of the elements created in
    source/discretization.template.h:126-148. *)
Fixpoint peval (P : list R) (x : R) : R := match P with [] => 0 | c :: P' => c + x * peval P' x end.
(** Sum, same polynomials.  source/discretization.template.h:126-148. *)
Fixpoint padd (P Q : list R) : list R :=
  match P, Q with [], _ => Q | _, [] => P | a :: P', b :: Q' => (a + b) :: padd P' Q' end.
(** Multiple, same polynomials.  source/discretization.template.h:126-148. *)
Definition pscal (c : R) (P : list R) : list R := map (Rmult c) P.
(** Product, same polynomials.  source/discretization.template.h:126-148. *)
Fixpoint pmul (P Q : list R) : list R :=
  match P with [] => [] | c :: P' => padd (pscal c Q) (0 :: pmul P' Q) end.
(** Derivative, same polynomials: (c + x P)' = P + x P'.
    source/discretization.template.h:126-148. *)
Fixpoint pderiv (P : list R) : list R :=
  match P with [] => [] | _ :: P' => padd P' (0 :: pderiv P') end.

(** ** One direction *)

(** Gauss-Lobatto points with n points (the midpoint for n = 1),
    source/discretization.template.h:157, 169, 179, 189 *)
Definition lobatto_point (n i : nat) : R :=
  match n with
  | 1%nat => 1 / 2
  | 2%nat => nth i [0; 1] 0
  | 3%nat => nth i [0; 1 / 2; 1] 0
  | _ => nth i [0; (1 - sqrt 5 / 5) / 2; (1 + sqrt 5 / 5) / 2; 1] 0
  end.

(** Gauss points with n points, QGauss in source/discretization.template.h:153-155,
    165-167, 175-177, 185-187 *)
Definition gauss_point (n q : nat) : R :=
  match n with
  | 1%nat => 1 / 2
  | 2%nat => nth q [(1 - sqrt 3 / 3) / 2; (1 + sqrt 3 / 3) / 2] 0
  | 3%nat => nth q [(1 - sqrt (3 / 5)) / 2; 1 / 2; (1 + sqrt (3 / 5)) / 2] 0
  | _ => nth q [(1 - sqrt ((15 + 2 * sqrt 30) / 35)) / 2; (1 - sqrt ((15 - 2 * sqrt 30) / 35)) / 2;
                (1 + sqrt ((15 - 2 * sqrt 30) / 35)) / 2; (1 + sqrt ((15 + 2 * sqrt 30) / 35)) / 2] 0
  end.

(** Their weights, same lines.  source/discretization.template.h:153-187. *)
Definition gauss_weight (n q : nat) : R :=
  match n with
  | 1%nat => 1
  | 2%nat => 1 / 2
  | 3%nat => nth q [5 / 18; 4 / 9; 5 / 18] 0
  | _ => nth q [(18 - sqrt 30) / 72; (18 + sqrt 30) / 72; (18 + sqrt 30) / 72; (18 - sqrt 30) / 72] 0
  end.

(** The Lagrange polynomials of degree p in the points of FE_Q(p), FE_DGQ(p),
    source/discretization.template.h:126-148. *)
Definition lagrange (p i : nat) : list R :=
  fold_right (fun j P =>
    if Nat.eqb j i then P
    else pmul (pscal (/ (lobatto_point (S p) i - lobatto_point (S p) j)) [- lobatto_point (S p) j; 1]) P)
    [1] (seq 0 (S p)).

(** ** Tensor products *)

(** The k-th digit of an index in base n: the index in direction k;
    lexicographic numbering of the tensor products in
    source/discretization.template.h:126-190. *)
Definition digit (n i k : nat) : nat := ((i / n ^ k) mod n)%nat.

(** Products over the directions, dealii::TensorProductPolynomials and
    dealii::Quadrature, same lines.  source/discretization.template.h:126-190. *)
Fixpoint rprod (n : nat) (f : nat -> R) : R := match n with O => 1 | S k => rprod k f * f k end.

Section Box.
Variables (a : ansatz) (dim : nat) (h : nat -> R).
Let p := degree a.
Let n := n_gauss a.

(** Number of local degrees of freedom, and of quadrature points of cells and faces;
    fe_values in source/scratch_data.h:33-62. *)
Definition box_n_local : nat := (S p ^ dim)%nat.
(** See the comment above, source/scratch_data.h:33-62. *)
Definition box_n_points : nat := (n ^ dim)%nat.
(** See the comment above, source/scratch_data.h:33-62. *)
Definition box_n_face_points : nat := (n ^ (dim - 1))%nat.
(** See the comment above, source/scratch_data.h:33-62. *)
Definition box_n_nodes : nat := (n_lobatto a ^ (dim - 1))%nat.

(** fe_values.shape_value, JxW and shape_grad on a box with the extents [h],
    source/offline_data.template.h:560-578. *)
Definition box_value (i q : nat) : R :=
  rprod dim (fun k => peval (lagrange p (digit (S p) i k)) (gauss_point n (digit n q k))).
(** See the comment above, source/offline_data.template.h:560-578. *)
Definition box_JxW (q : nat) : R := rprod dim (fun k => h k * gauss_weight n (digit n q k)).
(** See the comment above, source/offline_data.template.h:560-578. *)
Definition box_grad (i q d : nat) : R :=
  if Nat.ltb d dim then
    rprod dim (fun k =>
      if Nat.eqb k d then peval (pderiv (lagrange p (digit (S p) i k))) (gauss_point n (digit n q k)) / h k
      else peval (lagrange p (digit (S p) i k)) (gauss_point n (digit n q k)))
  else 0.

(** The position of direction [m] among the directions of a face normal to [k],
    source/offline_data.template.h:580-629. *)
Definition along_face (k m : nat) : nat := if Nat.ltb m k then m else (m - 1)%nat.

(** Faces 2 k and 2 k + 1 are normal to direction k; values, weights and normals on them,
    source/offline_data.template.h:580-629. *)
Definition box_face_value (f i q : nat) : R :=
  rprod dim (fun m =>
    peval (lagrange p (digit (S p) i m))
      (if Nat.eqb m (f / 2) then INR (f mod 2) else gauss_point n (digit n q (along_face (f / 2) m)))).
(** See the comment above, source/offline_data.template.h:580-629. *)
Definition box_face_JxW (f q : nat) : R :=
  rprod dim (fun m => if Nat.eqb m (f / 2) then 1 else h m * gauss_weight n (digit n q (along_face (f / 2) m))).
(** See the comment above, source/offline_data.template.h:580-629. *)
Definition box_normal (f q d : nat) : R := if Nat.eqb d (f / 2) then 2 * INR (f mod 2) - 1 else 0.

(** Values in the points of the nodal quadrature of the face,
    source/offline_data.template.h:884-895, source/scratch_data.h:46-50. *)
Definition box_node_value (f i q : nat) : R :=
  rprod dim (fun m =>
    peval (lagrange p (digit (S p) i m))
      (if Nat.eqb m (f / 2) then INR (f mod 2) else lobatto_point (n_lobatto a) (digit (n_lobatto a) q (along_face (f / 2) m)))).

(** has_support_on_face: an element of degree zero has support everywhere, the others
    where the point of the shape function is on the face;
    source/offline_data.template.h:1243, 1415. *)
Definition box_support (i f : nat) : bool :=
  Nat.eqb p 0 || Nat.eqb (digit (S p) i (f / 2)) (if Nat.eqb (f mod 2) 0 then 0 else p).
End Box.
