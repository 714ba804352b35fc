(** * Examples: a cell with a curved line, a cell with a curved face, a
    parallelogram *)
From Coq Require Import Reals Lra Lia List Bool Arith.
From Verif Require Import Transfinite TransfiniteSpec TransfiniteProofs TransfiniteFinal.
Import ListNotations.
Local Open Scope R_scope.

(** The vertices of the unit cube; the first four are those of the unit
    square. *)
Definition unit_vertex (v : nat) : pt := fun e =>
  match e with
  | O => INR (v mod 2) | 1%nat => INR ((v / 2) mod 2) | 2%nat => INR (v / 4) | _ => 0
  end.

(** A manifold that pushes points in the first direction by the product of
    all weights. *)
Definition bulge : manifold := fun points weights e =>
  fold_right Rplus 0 (map (fun pw => snd pw * fst pw e) (combine points weights))
  + match e with O => fold_right Rmult 1 weights | _ => 0 end.

Definition bulges (n : nat) : manifold := bulge.

(** The unit square whose left line is curved. *)
Definition bent : cell :=
  {| vertex := unit_vertex; my_id := id 0;
     line_id := fun l => if (l =? 0)%nat then id 1 else id 0; face_id := fun _ => id 0 |}.

Definition bent_left (t : R) : pt := fun e => match e with O => (1 - t) * t | 1%nat => t | _ => 0 end.

Lemma bent_plain : plain bent (id 0).
Proof. right. reflexivity. Qed.

Lemma bent_curved : ~ plain bent (id 1).
Proof. intros [H|H]; discriminate. Qed.

Lemma bent_edges : edges_2 bulges bent bent_left (straight (unit_vertex 1) (unit_vertex 3))
  (straight (unit_vertex 0) (unit_vertex 1)) (straight (unit_vertex 2) (unit_vertex 3)).
Proof.
  split.
  - split.
    + intros P. exfalso. exact (bent_curved P).
    + intros n _ E t e. injection E as <-. unfold bulges, bulge. cbn. unfold unit_vertex.
      destruct e as [|[|[|e]]]; cbn; ring.
  - split; [reflexivity|]. intros n NP. exfalso. apply NP, bent_plain.
  - split; [reflexivity|]. intros n NP. exfalso. apply NP, bent_plain.
  - split; [reflexivity|]. intros n NP. exfalso. apply NP, bent_plain.
Qed.

Lemma bent_joins : joins bent_left (vertex bent 0) (vertex bent 2) /\
  joins (straight (unit_vertex 1) (unit_vertex 3)) (vertex bent 1) (vertex bent 3) /\
  joins (straight (unit_vertex 0) (unit_vertex 1)) (vertex bent 0) (vertex bent 1) /\
  joins (straight (unit_vertex 2) (unit_vertex 3)) (vertex bent 2) (vertex bent 3).
Proof.
  repeat split; unfold bent_left, straight; cbn [vertex bent]; try ring;
    destruct e as [|[|[|e]]]; cbn; ring.
Qed.

(** The center of the cell moves by half of what the left line moves. *)
Lemma bent_center : push_forward_2 bulges bent (chart (1 / 2, 1 / 2)) 0%nat = 5 / 8 /\
  push_forward_2 bulges bent (chart (0, 1 / 2)) 0%nat = 1 / 4.
Proof.
  rewrite !(formula_2 _ _ _ _ _ _ _ _ bent_edges). unfold blend, bent_left, straight, unit_vertex. cbn. lra.
Qed.

(** The unit cube whose left face is curved. *)
Definition cushion : cell :=
  {| vertex := unit_vertex; my_id := id 0; line_id := fun _ => flat;
     face_id := fun f => if (f =? 0)%nat then id 1 else id 0 |}.

Definition cushion_lines (l : nat) : R -> pt :=
  straight (unit_vertex (fst (line_ends l))) (unit_vertex (snd (line_ends l))).

Definition cushion_faces (f : nat) : R -> R -> pt :=
  match f with
  | O => fun s t e => match e with O => (s * (1 - s)) * (s * (1 - s)) * ((t * (1 - t)) * (t * (1 - t)))
                                 | 1%nat => s | 2%nat => t | _ => 0 end
  | _ => let '(l0, l1, l2, l3) := face_lines f in let '(v0, v1, v2, v3) := face_corners f in
         blend (cushion_lines l0) (cushion_lines l1) (cushion_lines l2) (cushion_lines l3)
           (unit_vertex v0) (unit_vertex v1) (unit_vertex v2) (unit_vertex v3)
  end.

Lemma cushion_skeleton : is_skeleton bulges cushion cushion_lines.
Proof.
  intros l Hl. split; [reflexivity|]. intros n NP. exfalso. apply NP. left. reflexivity.
Qed.

Lemma cushion_plain : forall f, (f <> 0)%nat -> plain cushion (face_id cushion f).
Proof. intros [|f] H; [lia|]. right. reflexivity. Qed.

Lemma cushion_surface : forall f, (f < 6)%nat -> is_face bulges cushion cushion_lines f (cushion_faces f).
Proof.
  intros f Hf. destruct f as [|f].
  - split.
    + intros [H|H]; discriminate.
    + intros n _ E s t e. injection E as <-. unfold bulges, bulge. cbn. unfold unit_vertex.
      destruct e as [|[|[|e]]]; cbn; lra.
  - assert (P : plain cushion (face_id cushion (S f))) by (apply cushion_plain; lia).
    destruct f as [|[|[|[|[|?]]]]]; [| | | | |lia]; (split; [reflexivity|intros n NP; exfalso; exact (NP P)]).
Qed.

Lemma cushion_joins : forall l, (l < 12)%nat ->
  joins (cushion_lines l) (vertex cushion (fst (line_ends l))) (vertex cushion (snd (line_ends l))).
Proof. intros l Hl e. unfold cushion_lines, straight. cbn [vertex cushion]. split; ring. Qed.

Lemma cushion_bounded : bounded_by (cushion_faces 0) (cushion_lines 8) (cushion_lines 10) (cushion_lines 0) (cushion_lines 4).
Proof.
  intros r e. unfold cushion_lines, straight, unit_vertex. cbn.
  destruct e as [|[|[|e]]]; cbn; repeat split; lra.
Qed.

Lemma cushion_center : blend_3 cushion_faces cushion_lines unit_vertex (1 / 2) (1 / 2) (1 / 2) 0%nat = 1 / 2 + 1 / 512.
Proof.
  unfold blend_3. cbn [cushion_faces face_lines face_corners]. unfold blend, cushion_lines, straight, unit_vertex. cbn. lra.
Qed.

(** A parallelogram and two of its points. *)
Definition slanted (p : R * R) : R * R := (2 * fst p + snd p, snd p).

Lemma slanted_parallelogram : parallelogram slanted.
Proof. exists (0, 0), (2, 0), (1, 1). cbn [fst snd]. split; [lra|]. intros u v. unfold slanted. cbn [fst snd]. f_equal; ring. Qed.

Definition slanted_cell : candidate :=
  {| c_map := slanted; c_tolerance := / 1000000; c_cheap := fun _ _ => None; c_affine := fun p => p |}.

Lemma slanted_new_point : exists r,
  get_new_point mean [slanted_cell] [(0, 0); (3, 1)] [1 / 2; 1 / 2] = Some r /\
  Rabs (fst r - 3 / 2) <= / 1000 /\ Rabs (snd r - 1 / 2) <= / 1000.
Proof.
  destruct (get_new_point mean [slanted_cell] [(0, 0); (3, 1)] [1 / 2; 1 / 2]) as [r|] eqn:E.
  - exists r. split; [reflexivity|].
    destruct (new_point_mean [slanted_cell] [(0, 0); (3, 1)] [1 / 2; 1 / 2] (/ 1000) r) as [A B].
    + constructor; [|constructor]. split; [|exact slanted_parallelogram]. cbn. lra.
    + lra.
    + reflexivity.
    + cbn. lra.
    + exact E.
    + unfold mean in A, B. cbn in A, B. rewrite (Rabs_pos_eq (1 / 2)) in A, B by lra.
      replace (fst r - (1 / 2 * 0 + (1 / 2 * 3 + 0))) with (fst r - 3 / 2) in A by lra.
      replace (snd r - (1 / 2 * 0 + (1 / 2 * 1 + 0))) with (snd r - 1 / 2) in B by lra.
      split; lra.
  - exfalso.
    assert (H : [(0, 0); (3, 1)] = map (c_map slanted_cell) [(0, 0); (1, 1)]).
    { cbn. unfold slanted. cbn [fst snd]. repeat f_equal; ring. }
    rewrite H in E. revert E. apply new_point_exists.
    + cbn. lra.
    + exact slanted_parallelogram.
    + repeat constructor; cbn; lra.
Qed.

Lemma cushion_below : forall x y z, In x [0; 1; 1 / 2; 1 / 2] -> In y [0; 1; 1 / 2; 1 / 2] -> In z [0; 1; 1 / 2; 1 / 2] ->
  below cushion_faces cushion_lines x y z 0 1.
Proof.
  assert (L : forall l t, (l < 12)%nat -> 0 <= t <= 1 -> Rabs (cushion_lines l t 0%nat) <= 1).
  { intros l t Hl Ht. unfold cushion_lines, straight, unit_vertex.
    do 12 (destruct l as [|l]; [cbn; apply Rabs_le; lra|]). lia. }
  assert (I : forall t, In t [0; 1; 1 / 2; 1 / 2] -> 0 <= t <= 1) by (intros t H; cbn in H; lra).
  assert (F : forall f s t, (f < 6)%nat -> 0 <= s <= 1 -> 0 <= t <= 1 -> Rabs (cushion_faces f s t 0%nat) <= 1).
  { intros f s t Hf Hs Ht. destruct f as [|f].
    - cbn. assert (0 <= s * (1 - s) <= 1) by nra. assert (0 <= t * (1 - t) <= 1) by nra.
      assert (0 <= (s * (1 - s)) * (s * (1 - s)) <= 1) by nra. assert (0 <= (t * (1 - t)) * (t * (1 - t)) <= 1) by nra.
      apply Rabs_le. nra.
    - apply Rabs_le. destruct f as [|[|[|[|[|?]]]]]; [| | | | |lia]; cbn [cushion_faces face_lines face_corners];
        unfold blend, cushion_lines, straight, unit_vertex; cbn; lra. }
  intros x y z Hx Hy Hz. apply I in Hx. apply I in Hy. apply I in Hz. split.
  - intros f Hf s t [E|[E|[E|[]]]]; injection E as <- <-; apply F; assumption.
  - intros l Hl t [E|[E|[E|[]]]]; subst t; apply L; assumption.
Qed.

(** In the middle of the curved face. *)
Lemma cushion_face : Rabs (push_forward_3 bulges cushion (xyz 0 (1 / 2) (1 / 2)) 0%nat - 1 / 256) <= 18 * cutoff * 1.
Proof.
  destruct (faces_3 bulges cushion cushion_lines cushion_faces (1 / 2) (1 / 2) 0 1 cushion_skeleton cushion_surface
    cushion_joins) as [H _].
  - intros f Hf NP. destruct f as [|f]; [exact cushion_bounded|]. exfalso. apply NP, cushion_plain. lia.
  - exact cushion_below.
  - replace (1 / 256) with (cushion_faces 0 (1 / 2) (1 / 2) 0%nat); [exact H|]. cbn. lra.
Qed.
