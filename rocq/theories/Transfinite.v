(** * Model: the manifold of transfinite interpolation

    New vertices of the airfoil mesh are placed by a manifold that blends the
    curved lines and faces of a coarse cell into its interior.  The manifolds
    attached to lines and faces are arbitrary functions of points and weights;
    a point is given by its components. *)
From Coq Require Import Reals List Bool Arith.
Import ListNotations.
Local Open Scope R_scope.

(** Point<spacedim> of source/transfinite_interpolation.template.h:94, by
    components. *)
Definition pt := nat -> R.

(** types::manifold_id with numbers::flat_manifold_id,
    source/transfinite_interpolation.template.h:63-64. *)
Inductive manifold_id := flat | id (n : nat).

(** source/transfinite_interpolation.template.h:152-153. *)
Definition same_id (a b : manifold_id) : bool :=
  match a, b with flat, flat => true | id n, id m => (n =? m)%nat | _, _ => false end.

(** What source/transfinite_interpolation.template.h:94-364 reads of a cell:
    its vertices, and the manifold ids of the cell, its lines and its faces. *)
Record cell := { vertex : nat -> pt; my_id : manifold_id;
                 line_id : nat -> manifold_id; face_id : nat -> manifold_id }.

(** "Same manifold or invalid id which will go back to the same class",
    source/transfinite_interpolation.template.h:152-153, 273-274, 340-341. *)
Definition own (c : cell) (i : manifold_id) : bool := same_id i (my_id c) || same_id i flat.

(** Manifold::get_new_point, called in
    source/transfinite_interpolation.template.h:166-167, 310-311, 352-354. *)
Definition manifold := list pt -> list R -> pt.

(** source/transfinite_interpolation.template.h:122, 154-157, 173. *)
Definition add_at (w : nat -> R) (i : nat) (x : R) : nat -> R :=
  fun j => if (j =? i)%nat then w j + x else w j.

(** new_point += a * p, source/transfinite_interpolation.template.h:122. *)
Definition plus_pt (q : pt) (a : R) (p : pt) : pt := fun e => q e + a * p e.

(** Point<spacedim>(), source/transfinite_interpolation.template.h:119. *)
Definition zero_pt : pt := fun _ => 0.

(** ** Two dimensions *)

(** GeometryInfo<2>::line_to_cell_vertices, called in
    source/transfinite_interpolation.template.h:154-162. *)
Definition line_vertex_2 (line v : nat) : nat :=
  nth v (nth line [[0; 2]; [1; 3]; [0; 1]; [2; 3]]%nat []) 0%nat.

(** source/transfinite_interpolation.template.h:113-117. *)
Definition weights_2 (x : nat -> R) : nat -> R := fun v =>
  nth v [(1 - x 0%nat) * (1 - x 1%nat); x 0%nat * (1 - x 1%nat); (1 - x 0%nat) * x 1%nat; x 0%nat * x 1%nat] 0.

(** source/transfinite_interpolation.template.h:142-143. *)
Definition line_weight_2 (x : nat -> R) (line : nat) : R :=
  if (line mod 2 =? 1)%nat then x (line / 2)%nat else 1 - x (line / 2)%nat.

(** source/transfinite_interpolation.template.h:144. *)
Definition line_point_2 (x : nat -> R) (line : nat) : R := x (1 - line / 2)%nat.

(** One pass of the loop over lines,
    source/transfinite_interpolation.template.h:142-168. *)
Definition line_step_2 (M : nat -> manifold) (c : cell) (x : nat -> R)
    (s : (nat -> R) * pt) (line : nat) : (nat -> R) * pt :=
  let my_weight := line_weight_2 x line in
  let line_point := line_point_2 x line in
  let v0 := line_vertex_2 line 0 in
  let v1 := line_vertex_2 line 1 in
  if own c (line_id c line) then
    (add_at (add_at (fst s) v0 (- (my_weight * (1 - line_point)))) v1 (- (my_weight * line_point)), snd s)
  else
    match line_id c line with
    | id n => (fst s, plus_pt (snd s) my_weight (M n [vertex c v0; vertex c v1] [1 - line_point; line_point]))
    | flat => s
    end.

(** compute_transfinite_interpolation in two dimensions,
    source/transfinite_interpolation.template.h:92-177. *)
Definition interpolate_2 (M : nat -> manifold) (c : cell) (is_flat : bool) (x : nat -> R) : pt :=
  if is_flat then fold_left (fun q v => plus_pt q (weights_2 x v) (vertex c v)) (seq 0 4) zero_pt
  else
    let s := fold_left (line_step_2 M c x) (seq 0 4) (weights_2 x, zero_pt) in
    fold_left (fun q v => plus_pt q (- fst s v) (vertex c v)) (seq 0 4) (snd s).

(** The flag computed in source/transfinite_interpolation.template.h:61-73. *)
Definition cell_is_flat (dim : nat) (c : cell) : bool :=
  forallb (fun l => own c (line_id c l)) (seq 0 (if (dim =? 2)%nat then 4 else 12)) &&
  ((dim <=? 2)%nat || forallb (fun q => own c (face_id c q)) (seq 0 6)).

(** ** Three dimensions *)

(** source/transfinite_interpolation.template.h:182-188. *)
Definition face_vertex (face v : nat) : nat :=
  nth v (nth face [[0; 2; 4; 6]; [1; 3; 5; 7]; [0; 4; 1; 5]; [2; 6; 3; 7]; [0; 1; 2; 3]; [4; 5; 6; 7]]%nat []) 0%nat.

(** source/transfinite_interpolation.template.h:193-198. *)
Definition face_line (face l : nat) : nat :=
  nth l (nth face [[8; 10; 0; 4]; [9; 11; 1; 5]; [2; 6; 8; 9]; [3; 7; 10; 11]; [0; 1; 2; 3]; [4; 5; 6; 7]]%nat []) 0%nat.

(** GeometryInfo<3>::line_to_cell_vertices, called in
    source/transfinite_interpolation.template.h:342-350. *)
Definition line_vertex_3 (line v : nat) : nat :=
  nth v (nth line [[0; 2]; [1; 3]; [0; 1]; [2; 3]; [4; 6]; [5; 7]; [4; 5]; [6; 7]; [0; 4]; [1; 5]; [2; 6]; [3; 7]]%nat
    []) 0%nat.

(** linear_shapes with the entries that wrap around,
    source/transfinite_interpolation.template.h:227-235. *)
Definition shape (x : nat -> R) (k : nat) : R :=
  let d := ((k mod 6) / 2)%nat in if (k mod 2 =? 1)%nat then x d else 1 - x d.

(** source/transfinite_interpolation.template.h:237-243. *)
Definition weights_3 (x : nat -> R) : nat -> R := fun v =>
  (shape x (4 + v / 4) * shape x (2 + (v / 2) mod 2)) * shape x (v mod 2).

(** 1e-13 of source/transfinite_interpolation.template.h:267, 334. *)
Definition cutoff : R := / 10000000000000.

(** The weights of the four vertices of a face,
    source/transfinite_interpolation.template.h:287-298, 302-309. *)
Definition face_weight (x : nat -> R) (face v : nat) : R :=
  let even := (face - face mod 2)%nat in
  shape x (even + 2 + v mod 2) * shape x (even + 4 + v / 2).

(** One pass of the loop over faces,
    source/transfinite_interpolation.template.h:262-313; the state holds
    weights_lines, weights_vertices and new_point. *)
Definition face_step (M : nat -> manifold) (c : cell) (x : nat -> R)
    (s : (nat -> R) * (nat -> R) * pt) (face : nat) : (nat -> R) * (nat -> R) * pt :=
  let my_weight := shape x face in
  let even := (face - face mod 2)%nat in
  if Rlt_dec (Rabs my_weight) cutoff then s
  else if own c (face_id c face) then
    (fold_left (fun w l => add_at w (face_line face l) (my_weight * shape x (even + 2 + l))) (seq 0 4) (fst (fst s)),
     fold_left (fun w v => add_at w (face_vertex face v)
                  (- (shape x (even + 2 + v mod 2) * (shape x (even + 4 + v / 2) * my_weight)))) (seq 0 4) (snd (fst s)),
     snd s)
  else
    match face_id c face with
    | id n => (fst s, plus_pt (snd s) my_weight
                 (M n (map (fun v => vertex c (face_vertex face v)) (seq 0 4)) (map (face_weight x face) (seq 0 4))))
    | flat => s
    end.

(** source/transfinite_interpolation.template.h:322-323. *)
Definition line_point_3 (x : nat -> R) (line : nat) : R :=
  if (line <? 8)%nat then x (1 - (line mod 4) / 2)%nat else x 2%nat.

(** source/transfinite_interpolation.template.h:324-331. *)
Definition line_weight_3 (x : nat -> R) (line : nat) : R :=
  if (line <? 8)%nat then shape x (line mod 4) * shape x (4 + line / 4)
  else shape x ((line - 8) mod 2) * shape x (2 + (line - 8) / 2).

(** One pass of the loop over lines,
    source/transfinite_interpolation.template.h:320-356; the state holds
    weights_vertices and new_point. *)
Definition line_step_3 (M : nat -> manifold) (c : cell) (x weights_lines : nat -> R)
    (s : (nat -> R) * pt) (line : nat) : (nat -> R) * pt :=
  let line_point := line_point_3 x line in
  let my_weight := line_weight_3 x line - weights_lines line in
  let v0 := line_vertex_3 line 0 in
  let v1 := line_vertex_3 line 1 in
  if Rlt_dec (Rabs my_weight) cutoff then s
  else if own c (line_id c line) then
    (add_at (add_at (fst s) v0 (- (my_weight * (1 - line_point)))) v1 (- (my_weight * line_point)), snd s)
  else
    match line_id c line with
    | id n => (fst s, plus_pt (snd s) (- my_weight) (M n [vertex c v0; vertex c v1] [1 - line_point; line_point]))
    | flat => s
    end.

(** compute_transfinite_interpolation in three dimensions,
    source/transfinite_interpolation.template.h:201-363. *)
Definition interpolate_3 (M : nat -> manifold) (c : cell) (is_flat : bool) (x : nat -> R) : pt :=
  if is_flat then fold_left (fun q v => plus_pt q (weights_3 x v) (vertex c v)) (seq 0 8) zero_pt
  else
    let s := fold_left (face_step M c x) (seq 0 6) (fun _ => 0, weights_3 x, zero_pt) in
    let r := fold_left (line_step_3 M c x (fst (fst s))) (seq 0 12) (snd (fst s), snd s) in
    fold_left (fun q v => plus_pt q (fst r v) (vertex c v)) (seq 0 8) (snd r).

(** push_forward, source/transfinite_interpolation.template.h:367-382. *)
Definition push_forward_2 (M : nat -> manifold) (c : cell) : (nat -> R) -> pt := interpolate_2 M c (cell_is_flat 2 c).

(** push_forward, source/transfinite_interpolation.template.h:367-382. *)
Definition push_forward_3 (M : nat -> manifold) (c : cell) : (nat -> R) -> pt := interpolate_3 M c (cell_is_flat 3 c).

(** ** The inverse, in two dimensions *)

(** The pair of components of a point, or of chart coordinates,
    source/transfinite_interpolation.template.h:412-415. *)
Definition chart (p : R * R) : nat -> R := fun d => match d with O => fst p | _ => snd p end.

(** source/transfinite_interpolation.template.h:430-432. *)
Definition map_2 (M : nat -> manifold) (c : cell) (p : R * R) : R * R :=
  let q := push_forward_2 M c (chart p) in (q 0%nat, q 1%nat).

(** GeometryInfo<2>::is_inside_unit_cell, called in
    source/transfinite_interpolation.template.h:486-487, 845. *)
Definition inside (p : R * R) (eps : R) : bool :=
  if Rlt_dec (fst p) (- eps) then false else if Rlt_dec (1 + eps) (fst p) then false
  else if Rlt_dec (snd p) (- eps) then false else if Rlt_dec (1 + eps) (snd p) then false else true.

(** GeometryInfo<2>::project_to_unit_cell, called in
    source/transfinite_interpolation.template.h:422-423. *)
Definition project (p : R * R) : R * R := (Rmin 1 (Rmax 0 (fst p)), Rmin 1 (Rmax 0 (snd p))).

(** source/transfinite_interpolation.template.h:21, 417-419. *)
Definition outside : R * R := (20, 20).

(** a + s * b, source/transfinite_interpolation.template.h:487, 493, 501. *)
Definition axpy (a : R * R) (s : R) (b : R * R) : R * R := (fst a + s * fst b, snd a + s * snd b).

(** Point and tensor differences,
    source/transfinite_interpolation.template.h:431, 494. *)
Definition minus (a b : R * R) : R * R := (fst a - fst b, snd a - snd b).

(** norm_square(), source/transfinite_interpolation.template.h:435, 497. *)
Definition norm_square (a : R * R) : R := fst a * fst a + snd a * snd a.

(** A matrix by rows, source/transfinite_interpolation.template.h:393, 436. *)
Definition matrix := ((R * R) * (R * R))%type.

(** push_forward_gradient, source/transfinite_interpolation.template.h:392-408;
    the rows belong to the components of the point. *)
Definition gradient (S : R * R -> R * R) (x pushed : R * R) : matrix :=
  let step d := if Rlt_dec (1 / 2) d then - / 100000000 else / 100000000 in
  let s0 := step (fst x) in
  let s1 := step (snd x) in
  let d0 := minus (S (fst x + s0, snd x)) pushed in
  let d1 := minus (S (fst x, snd x + s1)) pushed in
  ((fst d0 / s0, fst d1 / s1), (snd d0 / s0, snd d1 / s1)).

(** DerivativeForm::determinant,
    source/transfinite_interpolation.template.h:471. *)
Definition determinant (g : matrix) : R := fst (fst g) * snd (snd g) - snd (fst g) * fst (snd g).

(** The inverse.  DerivativeForm::covariant_form is its transpose and is used
    transposed, source/transfinite_interpolation.template.h:473, 476-479. *)
Definition inverse (g : matrix) : matrix :=
  let d := determinant g in
  ((snd (snd g) / d, - snd (fst g) / d), (- fst (snd g) / d, fst (fst g) / d)).

(** source/transfinite_interpolation.template.h:476-479, 532-535. *)
Definition apply (g : matrix) (r : R * R) : R * R :=
  (fst (fst g) * fst r + snd (fst g) * snd r, fst (snd g) * fst r + snd (snd g) * snd r).

(** The loop that keeps the step inside of the enlarged cell,
    source/transfinite_interpolation.template.h:486-489; 24 halvings reach
    the bound 1e-7. *)
Fixpoint shorten (fuel : nat) (x update : R * R) (alpha : R) : R :=
  match fuel with
  | O => alpha
  | S n => if inside (axpy x alpha update) (2 / 10) then alpha
           else if Rlt_dec (/ 10000000) alpha then shorten n x update (alpha / 2) else alpha
  end.

(** The line search, source/transfinite_interpolation.template.h:492-506;
    None if no step is accepted; 14 halvings reach the bound 1e-4. *)
Fixpoint line_search (fuel : nat) (S : R * R -> R * R) (point x update : R * R) (norm alpha : R) :
  option R :=
  match fuel with
  | O => None
  | Datatypes.S n =>
      if Rlt_dec (/ 10000) alpha then
        if Rlt_dec (norm_square (minus point (S (axpy x alpha update)))) norm then Some alpha
        else line_search n S point x update norm (alpha / 2)
      else None
  end.

(** "Broyden's good method",
    source/transfinite_interpolation.template.h:530-556; the test
    must_recompute_jacobian is the first argument. *)
Definition broyden (must : bool) (tolerance : R) (J : matrix) (delta_x delta_f : R * R) : matrix :=
  let Jf := apply J delta_f in
  let dot := fst delta_x * fst Jf + snd delta_x * snd Jf in
  if Rlt_dec (1 / 10 * tolerance) (Rabs dot) then
    if must then J
    else
      let factor := (fst (minus delta_x Jf) / dot, snd (minus delta_x Jf) / dot) in
      let u := (fst delta_x * fst (fst J) + snd delta_x * fst (snd J),
                fst delta_x * snd (fst J) + snd delta_x * snd (snd J)) in
      ((fst (fst J) + fst factor * fst u, snd (fst J) + fst factor * snd u),
       (fst (snd J) + snd factor * fst u, snd (snd J) + snd factor * snd u))
  else J.

(** The variables of the iteration,
    source/transfinite_interpolation.template.h:422-437. *)
Record newton := { chart_point : R * R; residual : R * R; inv_grad : matrix; must : bool }.

(** The passes of the quasi-Newton loop that remain, from pass i on,
    source/transfinite_interpolation.template.h:438-558.  residual_norm_square
    is always the square of the norm of residual.  The early stop of line
    523-525 needs must_recompute_jacobian, which line 474 has set to false in
    the same pass unless it was false already, so it is never taken.  When no
    step is accepted, alpha in line 537 is the last one tried; as the matrix
    is then not updated its value does not matter. *)
Fixpoint iterate (fuel : nat) (S : R * R -> R * R) (tolerance : R) (point : R * R) (i : nat) (s : newton) : R * R :=
  match fuel with
  | O => outside
  | Datatypes.S n =>
      let r := residual s in
      if Rlt_dec (norm_square r) tolerance then axpy (chart_point s) 1 (apply (inv_grad s) r)
      else
        let recompute := must s ||
          ((if Rlt_dec (10000 * tolerance) (norm_square r) then true else false) && (i mod 7 =? 0)%nat) in
        let grad := gradient S (chart_point s) (minus point r) in
        if recompute && (if Rle_dec (determinant grad) 0 then true else false) then outside
        else
          let J := if recompute then inverse grad else inv_grad s in
          let update := apply J r in
          let alpha := shorten 24 (chart_point s) update 1 in
          match line_search 14 S point (chart_point s) update (norm_square r) alpha with
          | Some a =>
              let x := axpy (chart_point s) a update in
              let r' := minus point (S x) in
              iterate n S tolerance point (i + 1)
                {| chart_point := x; residual := r';
                   inv_grad := broyden false tolerance J (a * fst update, a * snd update) (minus r r');
                   must := false |}
          | None =>
              iterate n S tolerance point (i + 1)
                {| chart_point := chart_point s; residual := r; inv_grad := J; must := true |}
          end
  end.

(** pull_back, source/transfinite_interpolation.template.h:411-560. *)
Definition pull_back (S : R * R -> R * R) (tolerance : R) (point guess : R * R) : R * R :=
  let x := project guess in
  iterate 100 S tolerance point 0
    {| chart_point := x; residual := minus point (S x); inv_grad := ((0, 0), (0, 0)); must := true |}.

(** ** Placing new points *)

(** The first coordinate marks a failed inversion,
    source/transfinite_interpolation.template.h:814-815, 823-824. *)
Definition invalid (p : R * R) : bool := if Req_EM_T (fst p) 20 then true else false.

(** compute_chart_point, source/transfinite_interpolation.template.h:764-830.
    The cheap guess (absent if the affine approximation is used at once), the
    affine approximation and the center of the cell are tried in turn. *)
Definition chart_point_of (S : R * R -> R * R) (tolerance : R) (point : R * R)
    (cheap : option (R * R)) (affine : R * R) : R * R :=
  let first := match cheap with Some g => pull_back S tolerance point g | None => pull_back S tolerance point affine end in
  let second := match cheap with
                | Some _ => if invalid first then pull_back S tolerance point affine else first
                | None => first
                end in
  if invalid second then pull_back S tolerance point (1 / 2, 1 / 2) else second.

(** A coarse cell with the map into real space, the tolerance
    1e-21 * diameter^2 and the guesses,
    source/transfinite_interpolation.template.h:433-434, 770-806.  The cheap
    guess for a point depends on its number and on the chart points found
    before, the affine approximation on the point. *)
Record candidate := { c_map : R * R -> R * R; c_tolerance : R;
                      c_cheap : nat -> list (R * R) -> option (R * R); c_affine : R * R -> R * R }.

(** The loop over the points of one cell,
    source/transfinite_interpolation.template.h:838-849: None if some point
    is not inside. *)
Fixpoint chart_points (k : candidate) (i : nat) (found : list (R * R)) (points : list (R * R)) : option (list (R * R)) :=
  match points with
  | [] => Some found
  | p :: rest =>
      let q := chart_point_of (c_map k) (c_tolerance k) p (c_cheap k i found) (c_affine k p) in
      if inside q (5 / 10000) then chart_points k (i + 1) (found ++ [q]) rest else None
  end.

(** compute_chart_points, source/transfinite_interpolation.template.h:833-884:
    the first of the candidates that holds all points; None is the exception
    of lines 875-877.  The candidates are those that
    get_possible_cells_around_points has found, in its order. *)
Fixpoint compute_chart_points (ks : list candidate) (points : list (R * R)) : option (candidate * list (R * R)) :=
  match ks with
  | [] => None
  | k :: rest => match chart_points k 0 [] points with
                 | Some qs => Some (k, qs)
                 | None => compute_chart_points rest points
                 end
  end.

(** get_new_point, source/transfinite_interpolation.template.h:890-907, with
    the manifold of the chart as a function of points and weights. *)
Definition get_new_point (chart_manifold : list (R * R) -> list R -> R * R) (ks : list candidate)
    (points : list (R * R)) (weights : list R) : option (R * R) :=
  match compute_chart_points ks points with
  | Some (k, qs) => Some (c_map k (chart_manifold qs weights))
  | None => None
  end.
