(** * Rows of boxes *)
From Coq Require Import Reals List Arith Bool Lia Lra.
From Verif Require Import RVec SchemeSpec AssemblySpec AssemblyProofs AssemblyFinal AssemblyMesh Discretization DiscretizationSpec DiscretizationProofs DiscretizationTensor DiscretizationFinal.
From Verif Require Import Assembly.
Import ListNotations.
Local Open Scope R_scope.

(** [m] boxes with the extents 1, 2, 3, ... next to each other in the first direction. *)
Definition row_extent (c k : nat) : R := INR (S k).
Definition row_next (m c f : nat) : option (nat * nat) :=
  match f with
  | 0%nat => match c with 0%nat => None | S b => Some (b, 1%nat) end
  | 1%nat => if Nat.ltb (S c) m then Some (S c, 0%nat) else None
  | _ => None
  end.
Definition row_dof (a : ansatz) (disc : bool) (dim m c i : nat) : nat :=
  let p := degree a in
  if disc then (c * S p ^ dim + i)%nat else (c * p + i mod S p + (m * p + 1) * (i / S p))%nat.
Definition row (a : ansatz) (disc : bool) (dim m : nat) : geometry := {|
  g_dim := dim;
  g_n_dofs := if disc then (m * S (degree a) ^ dim)%nat else ((m * degree a + 1) * S (degree a) ^ (dim - 1))%nat;
  g_n_cells := m; g_n_local := box_n_local a dim; g_dof := row_dof a disc dim m;
  g_n_points := box_n_points a dim; g_JxW := fun c => box_JxW a dim (row_extent c);
  g_value := fun _ => box_value a dim; g_grad := fun c => box_grad a dim (row_extent c);
  g_n_faces := (2 * dim)%nat; g_neighbor := row_next m;
  g_at_boundary := fun c f => match row_next m c f with None => true | Some _ => false end;
  g_boundary_id := fun _ _ => 0%nat; g_support := box_support a;
  g_n_face_points := box_n_face_points a dim;
  g_face_JxW := fun c => box_face_JxW a dim (row_extent c); g_normal := fun _ => box_normal; g_face_value := fun _ => box_face_value a dim;
  g_n_nodes := box_n_nodes a dim; g_node_value := fun _ => box_node_value a dim;
  g_constraint := fun _ => None; g_discontinuous := disc; g_even := false; g_relaxation_even := 1; g_relaxation_odd := 1;
  g_extra := fun _ _ => 0; g_invert := fun A => A; g_n_ranks := 1; g_rank := fun _ => 0%nat; g_visible := fun _ _ => true;
  g_row_rank := fun _ => 0%nat; g_row_index := fun I => I; g_row_lanes := fun I => [I] |}.

Lemma pow_split p d : (1 <= d)%nat -> (S p ^ d = S p * S p ^ (d - 1))%nat.
Proof. destruct d as [|d]; [lia|]. intros _. rewrite Nat.sub_succ, Nat.sub_0_r. reflexivity. Qed.

Lemma rest_digits p d i j : (1 <= d)%nat -> (i < S p ^ d)%nat -> (j < S p ^ d)%nat ->
  (forall k, (k < d)%nat -> k <> 0%nat -> digit (S p) i k = digit (S p) j k) -> (i / S p = j / S p)%nat.
Proof.
  intros Hd Hi Hj E. rewrite (pow_split p d Hd) in Hi, Hj.
  apply (digits_unique (S p) (d - 1)); [lia|apply Nat.div_lt_upper_bound; lia|apply Nat.div_lt_upper_bound; lia|].
  intros k Hk. specialize (E (S k) ltac:(lia) ltac:(lia)). unfold digit in *. rewrite !Nat.div_div by (try apply Nat.pow_nonzero; lia). exact E.
Qed.

Section Row.
Variables (a : ansatz) (disc : bool) (dim m : nat).
Hypothesis Hdim : (1 <= dim)%nat.
Hypothesis Hm : (1 <= m)%nat.
Hypothesis Hp : disc = false -> (1 <= degree a)%nat.

Lemma row_box : box_mesh a row_extent (row a disc dim m).
Proof using Hdim Hm Hp.
  unfold box_mesh, row; cbn [g_dim g_n_local g_n_points g_n_faces g_n_face_points g_n_nodes g_value g_JxW g_grad g_face_value g_face_JxW g_normal g_node_value g_support].
  split; [exact Hdim|]. split; [intros; unfold row_extent; apply lt_0_INR; lia|]. repeat split; reflexivity.
Qed.

Lemma row_conforming : conforming row_extent (row a disc dim m).
Proof using Hdim Hm Hp.
  intros c f c' f' Hc Hf N. cbn [row g_n_cells g_neighbor] in Hc, N |- *. destruct f as [|[|f]]; cbn [row_next] in N; [|  |discriminate].
  - destruct c as [|b]; [discriminate|]. injection N as <- <-. split; [lia|]. split; [reflexivity|]. split; [|reflexivity].
    unfold row_next. destruct (Nat.ltb_spec (S b) m) as [L|L]; [reflexivity|lia].
  - destruct (Nat.ltb_spec (S c) m) as [L|L]; [|discriminate]. injection N as <- <-. split; [lia|]. split; [reflexivity|]. split; reflexivity.
Qed.

Lemma row_valid : valid_indices (row a disc dim m).
Proof using Hdim Hm Hp.
  intros c i Hc Hi. cbn in *. unfold box_n_local in Hi. unfold row_dof. set (p := degree a) in *. destruct disc; [nia|].
  rewrite (pow_split p dim Hdim) in Hi.
  assert (i / S p < S p ^ (dim - 1))%nat by (apply Nat.div_lt_upper_bound; lia). pose proof (Nat.mod_upper_bound i (S p) ltac:(lia)).
  set (N := (S p ^ (dim - 1))%nat) in *. set (q := (i / S p)%nat) in *. set (r := (i mod S p)%nat) in *. clearbody N q r.
  assert (c * p + r <= m * p)%nat by nia. nia.
Qed.

Lemma row_cellwise : disc = true -> cellwise (row a disc dim m).
Proof using Hdim Hm Hp.
  intros ->. split; [reflexivity|]. split; [reflexivity|]. split; [|reflexivity].
  intros c i c' i' _ Hi _ Hi' E. cbn in E, Hi, Hi'. unfold row_dof, box_n_local in *. set (N := (S (degree a) ^ dim)%nat) in *. clearbody N.
  assert (c = c') as ->; [|lia].
  destruct (Nat.lt_trichotomy c c') as [L|[L|L]]; [|exact L|]; exfalso; nia.
Qed.

Lemma row_shared : disc = false -> shared_dofs a (row a disc dim m).
Proof using Hdim Hm Hp.
  intros D. split; [apply Hp; exact D|]. subst disc. intros c f c' f' i i' Hc Hf N Hi Hi' O O' E. cbn [row g_n_cells g_neighbor g_n_local g_dim g_dof] in Hc, N, Hi, Hi', E |- *. unfold row_dof.
  unfold on_face, position in *. set (p := degree a) in *. assert (P : (1 <= p)%nat) by (apply Hp; reflexivity).
  assert (D0 : forall j, digit (S p) j 0 = (j mod S p)%nat) by (intros; unfold digit; rewrite Nat.pow_0_r, Nat.div_1_r; reflexivity).
  destruct f as [|[|f]]; cbn [row_next] in N; [| |discriminate].
  - destruct c as [|b]; [discriminate|]. injection N as <- <-. change (0 / 2)%nat with 0%nat in *. change (1 / 2)%nat with 0%nat in *. rewrite D0 in O, O'. change (0 mod 2)%nat with 0%nat in *. change (1 mod 2)%nat with 1%nat in *. cbn [Nat.eqb] in O, O'.
    rewrite O, O', (rest_digits p dim i i') by (auto). lia.
  - destruct (Nat.ltb_spec (S c) m) as [L|L]; [|discriminate]. injection N as <- <-. change (0 / 2)%nat with 0%nat in *. change (1 / 2)%nat with 0%nat in *. rewrite D0 in O, O'. change (0 mod 2)%nat with 0%nat in *. change (1 mod 2)%nat with 1%nat in *. cbn [Nat.eqb] in O, O'.
    rewrite O, O', (rest_digits p dim i i') by (auto). lia.
Qed.

Lemma row_discretization : box_discretization a row_extent (row a disc dim m).
Proof using Hdim Hm Hp.
  split; [exact row_box|]. split; [exact row_conforming|]. split; [exact row_valid|]. split; [reflexivity|].
  change (g_discontinuous (row a disc dim m)) with disc. pose proof row_cellwise as C. pose proof row_shared as T. destruct disc; auto.
Qed.

Lemma row_covered I : (I < g_n_dofs (row a disc dim m))%nat ->
  exists c i, (c < g_n_cells (row a disc dim m))%nat /\ (i < g_n_local (row a disc dim m))%nat /\ g_dof (row a disc dim m) c i = I.
Proof using Hdim Hm Hp.
  cbn. unfold row_dof, box_n_local. set (p := degree a) in *. destruct disc.
  - intros H. set (N := (S p ^ dim)%nat) in *. assert (Z : (N <> 0)%nat) by (apply Nat.pow_nonzero; lia). exists (I / N)%nat, (I mod N)%nat.
    split; [apply Nat.div_lt_upper_bound; lia|]. split; [apply Nat.mod_upper_bound; exact Z|]. pose proof (Nat.div_mod I N Z). lia.
  - intros H. assert (P : (1 <= p)%nat) by (apply Hp; reflexivity). rewrite (pow_split p dim Hdim).
    set (N := (S p ^ (dim - 1))%nat) in *. set (W := (m * p + 1)%nat) in *. assert (Z : (W <> 0)%nat) by lia.
    pose proof (Nat.div_mod I W Z) as E. pose proof (Nat.mod_upper_bound I W Z) as U. assert (Y : (I / W < N)%nat) by (apply Nat.div_lt_upper_bound; lia).
    set (x := (I mod W)%nat) in *. set (y := (I / W)%nat) in *. clearbody x y.
    assert (C : exists c r, (c < m)%nat /\ (r <= p)%nat /\ (c * p + r = x)%nat).
    { destruct (Nat.eq_dec x (m * p)) as [->|Nx].
      - exists (m - 1)%nat, p. split; [lia|]. split; [lia|]. nia.
      - exists (x / p)%nat, (x mod p)%nat. split; [apply Nat.div_lt_upper_bound; lia|]. pose proof (Nat.mod_upper_bound x p ltac:(lia)). pose proof (Nat.div_mod x p ltac:(lia)). split; [lia|lia]. }
    destruct C as (c & r & Hc & Hr & Ex). exists c, (y * S p + r)%nat. split; [exact Hc|]. split; [nia|].
    rewrite Nat.div_add_l, (Nat.div_small r) by lia. rewrite (Nat.add_comm (y * S p)), Nat.mod_add, Nat.mod_small by lia. lia.
Qed.
End Row.

(** Three cells with cubic elements in three dimensions: all assumptions hold. *)
Lemma row_complete : complete_ansatz (row cg_q3 false 3 3).
Proof.
  apply (C149_complete_proof cg_q3 row_extent).
  - apply row_discretization; [lia|lia|]. intros _. cbn. lia.
  - apply row_covered; try lia. intros _. cbn. lia.
  - intros c f _ _ N. cbn in *. rewrite N. split; [reflexivity|discriminate].
  - intros c _. cbn. lia.
  - intros D. discriminate D.
Qed.

(** The total mass of a row of three boxes with extents 1, 2, 3. *)
Lemma row_mass a : rsum (g_n_dofs (row a true 3 3)) (lumped (row a true 3 3) (mass_entry (row a true 3 3))) = 18.
Proof.
  assert (D : box_discretization a row_extent (row a true 3 3)) by (apply row_discretization; [lia|lia|discriminate]).
  rewrite (proj2 (C149_lumped_proof a row_extent _ D (row_covered a true 3 3 ltac:(lia) ltac:(lia) ltac:(discriminate)))).
  unfold volume, row_extent. cbn. lra.
Qed.

(** Simpson's rule integrates with the weights of the nodal values: the cubic x^3 - x by two Gauss points. *)
Lemma gauss_case : rsum 2 (fun q => gauss_weight 2 q * peval [0; -1; 0; 1] (gauss_point 2 q)) = - (1 / 4).
Proof. rewrite C149_gauss_proof by (cbn; lia). unfold integral01. cbn. lra. Qed.

Lemma lobatto_case : rsum 4 (fun i => integral01 (lagrange 3 i) * peval [0; 0; 0; 0; 0; 1] (lobatto_point 4 i)) = 1 / 6.
Proof.
  pose proof (C149_lobatto_proof cg_q3 [0; 0; 0; 0; 0; 1]) as E. cbn [degree length] in E. rewrite E by lia. unfold integral01. cbn. lra.
Qed.

(** Rows of boxes with every discontinuous ansatz in every dimension. *)
Lemma row_case a dim m : (1 <= dim)%nat -> (1 <= m)%nat -> box_discretization a row_extent (row a true dim m).
Proof. intros. apply row_discretization; auto. discriminate. Qed.

(** Rows of boxes with every continuous ansatz. *)
Lemma row_continuous a dim m : (1 <= dim)%nat -> (1 <= m)%nat -> (1 <= degree a)%nat ->
  box_discretization a row_extent (row a false dim m) /\ shared_dofs a (row a false dim m) /\ conforming row_extent (row a false dim m).
Proof. intros. split; [apply row_discretization; auto|]. split; [apply row_shared; auto|apply row_conforming; auto]. Qed.
