(** * Meshes of boxes: proofs *)
From Coq Require Import Reals List Arith Bool Lia Lra Permutation.
From Verif Require Import RVec SchemeSpec AssemblySpec AssemblyProofs AssemblyFinal AssemblyMesh Discretization DiscretizationSpec DiscretizationProofs DiscretizationTensor.
From Verif Require Import Assembly.
Import ListNotations.
Local Open Scope R_scope.

(** ** One direction *)
Lemma C149_gauss_proof n P : (1 <= n <= 4)%nat -> (length P <= 2 * n)%nat ->
  rsum n (fun q => gauss_weight n q * peval P (gauss_point n q)) = integral01 P.
Proof. exact (exact n P). Qed.

Lemma C149_lagrange_proof a i j x : (i <= degree a)%nat -> (j <= degree a)%nat ->
  peval (lagrange (degree a) i) (lobatto_point (S (degree a)) j) = (if Nat.eqb j i then 1 else 0) /\
  rsum (S (degree a)) (fun k => peval (lagrange (degree a) k) x) = 1 /\
  derivable_pt_lim (peval (lagrange (degree a) i)) x (peval (pderiv (lagrange (degree a) i)) x).
Proof.
  intros Hi Hj. split; [apply lagrange_node; auto; apply degree_le|]. split; [apply lagrange_sum, degree_le|apply pderiv_correct].
Qed.

Lemma C149_lobatto_proof a P : (1 <= degree a)%nat -> (length P <= 2 * degree a)%nat ->
  rsum (S (degree a)) (fun i => integral01 (lagrange (degree a) i) * peval P (lobatto_point (S (degree a)) i)) = integral01 P.
Proof.
  intros H1 H2. apply lobatto_exact; [split; [exact H1|apply degree_le]|exact H2].
Qed.

(** ** Meshes *)
Section Mesh.
Variables (a : ansatz) (extent : nat -> nat -> R) (G : geometry).
Hypothesis B : box_mesh a extent G.

Ltac boxes := destruct B as (Hd & Hh & Nl & Np & Nf & Nfp & Nn & V & J & Gr & FV & FJ & Nm & NV & Su).

Lemma C149_partition_s : partition_of_unity G.
Proof using B.
  boxes. intros c Hc. rewrite Nl. split.
  - intros q Hq. split.
    + rewrite (rsum_ext _ _ (fun i => box_value a (g_dim G) i q)) by (intros; apply V). apply box_value_sum.
    + intros d. rewrite (rsum_ext _ _ (fun i => box_grad a (g_dim G) (extent c) i q d)) by (intros; apply Gr). apply box_grad_sum.
  - intros f q _ _. rewrite (rsum_ext _ _ (fun i => box_face_value a (g_dim G) f i q)) by (intros; apply FV). apply box_face_sum.
Qed.

Lemma C149_parts_s : gauss_theorem G.
Proof using B.
  boxes. intros c d i j Hc Hdd _ _. rewrite Np, Nf, Nfp.
  rewrite (rsum_ext _ _ (fun q => (box_value a (g_dim G) i q * box_grad a (g_dim G) (extent c) j q d + box_value a (g_dim G) j q * box_grad a (g_dim G) (extent c) i q d) * box_JxW a (g_dim G) (extent c) q))
    by (intros; rewrite !V, !Gr, J; reflexivity).
  rewrite (box_gauss a (g_dim G) (extent c) (Hh c) i j d Hdd).
  apply rsum_ext. intros f _. apply rsum_ext. intros q _. rewrite Nm, !FV, FJ. reflexivity.
Qed.

Lemma C149_positive_s c i : 0 < rsum (g_n_points G) (fun q => g_value G c i q * g_JxW G c q).
Proof using B.
  boxes. rewrite Np, (rsum_ext _ _ (fun q => box_value a (g_dim G) i q * box_JxW a (g_dim G) (extent c) q)) by (intros; rewrite V, J; reflexivity).
  apply box_mass_pos. apply Hh.
Qed.

Lemma C149_volume_s : integral G (fun _ _ => 1) = rsum (g_n_cells G) (fun c => volume (g_dim G) (extent c)).
Proof using B.
  boxes. unfold integral. apply rsum_ext. intros c _. rewrite <- (box_volume a). rewrite Np. apply rsum_ext. intros q _. rewrite J. ring.
Qed.

Lemma C149_support_s : support_correct G.
Proof using B.
  boxes. intros c f i _ Hf _ S. rewrite Nf in Hf. rewrite Su in S. split; intros q.
  - rewrite FV. apply (box_support_zero a (g_dim G) i f _ Hf S).
  - rewrite NV. apply (box_support_zero a (g_dim G) i f _ Hf S).
Qed.

Lemma C149_nodes_s c f q : (f < g_n_faces G)%nat ->
  exists i0, (i0 < g_n_local G)%nat /\ g_support G i0 f = true /\
    forall i, (i < g_n_local G)%nat -> g_node_value G c f i q = if Nat.eqb i i0 then 1 else 0.
Proof using B.
  boxes. intros Hf. rewrite Nf in Hf. destruct (box_node a (g_dim G) f q Hf) as (i0 & H0 & S0 & E). exists i0.
  rewrite Nl, Su. split; [exact H0|]. split; [exact S0|]. intros i Hi. rewrite NV. apply E. exact Hi.
Qed.

Lemma opposite_facts f d : (f < 2 * d)%nat -> (opposite f / 2 = f / 2)%nat /\ (opposite f mod 2 = 1 - f mod 2)%nat.
Proof.
  intros _. unfold opposite. pose proof (Nat.div_mod f 2 ltac:(lia)) as E. pose proof (Nat.mod_upper_bound f 2 ltac:(lia)) as U.
  set (k := (f / 2)%nat) in *. set (s := (f mod 2)%nat) in *. clearbody k s. subst f.
  destruct (Nat.eqb_spec s 0) as [->|N].
  - replace (S (2 * k + 0)) with (1 + k * 2)%nat by lia. rewrite Nat.div_add, Nat.mod_add by lia. split; reflexivity.
  - replace (2 * k + s - 1)%nat with (0 + k * 2)%nat by lia. rewrite Nat.div_add, Nat.mod_add by lia. change (0 / 2)%nat with 0%nat. change (0 mod 2)%nat with 0%nat. split; lia.
Qed.

Lemma opposite_lt f d : (f < 2 * d)%nat -> (opposite f < 2 * d)%nat.
Proof.
  intros H. destruct (opposite_facts f d H) as [O1 O2]. pose proof (Nat.div_mod (opposite f) 2 (Nat.neq_succ_0 1)) as E. pose proof (Nat.div_mod f 2 ltac:(lia)) as E'.
  pose proof (Nat.mod_upper_bound f 2 ltac:(lia)). rewrite O1, O2 in E. lia.
Qed.

Lemma C149_matching_s : conforming extent G -> matching_faces G.
Proof using B.
  boxes. intros C c f c' f' Hc Hf N. destruct (C c f c' f' Hc Hf N) as (Hc' & -> & N' & E).
  rewrite Nf in Hf. destruct (opposite_facts f _ Hf) as [O1 O2]. split; [exact Hc'|]. split; [rewrite Nf; apply opposite_lt; exact Hf|]. split; [exact N'|].
  intros q _. split.
  - rewrite !FJ. unfold box_face_JxW. rewrite O1. apply rprod_ext. intros m _. destruct (Nat.eqb_spec m (f / 2)) as [|Nm']; [reflexivity|]. rewrite E by exact Nm'. reflexivity.
  - intros d. rewrite !Nm. unfold box_normal. rewrite O1, O2. pose proof (Nat.mod_upper_bound f 2 ltac:(lia)) as U.
    destruct (Nat.eqb d (f / 2)); [|ring]. destruct (f mod 2)%nat as [|[|]]; [cbn; ring|cbn; ring|lia].
Qed.

(** Sums are invariant under involutions. *)
Lemma rsum_list n f : rsum n f = fold_right (fun k s => f k + s) 0 (seq 0 n).
Proof.
  assert (A : forall l x, fold_right (fun k s => f k + s) x l = fold_right (fun k s => f k + s) 0 l + x) by (induction l as [|y l IH]; intros; cbn; [ring|rewrite IH; ring]).
  induction n as [|n IH]; [reflexivity|]. rewrite seq_S, fold_right_app. cbn [fold_right rsum]. rewrite A, IH, Nat.add_0_l. ring.
Qed.
Lemma fold_perm (f : nat -> R) l l' : Permutation l l' -> fold_right (fun k t => f k + t) 0 l = fold_right (fun k t => f k + t) 0 l'.
Proof. induction 1; cbn; lra. Qed.
Lemma rsum_involution n f s : (forall i, (i < n)%nat -> (s i < n)%nat /\ s (s i) = i) -> rsum n (fun i => f (s i)) = rsum n f.
Proof.
  intros H. rewrite !rsum_list.
  assert (P : Permutation (map s (seq 0 n)) (seq 0 n)).
  { apply NoDup_Permutation_bis.
    - assert (Inj : forall l, (forall x, In x l -> (x < n)%nat) -> NoDup l -> NoDup (map s l)).
      { induction l as [|x l IH]; intros L D; cbn; constructor.
        - intros I. apply in_map_iff in I. destruct I as (y & E & Iy). inversion D as [|? ? N]; subst. apply N.
          assert (x = y) as ->; [|exact Iy]. rewrite <- (proj2 (H x (L x (or_introl eq_refl)))), <- (proj2 (H y (L y (or_intror Iy)))), E. reflexivity.
        - inversion D; subst. apply IH; auto. intros y Hy. apply L. right. exact Hy. }
      apply Inj; [intros x Hx; apply in_seq in Hx; lia|apply seq_NoDup].
    - rewrite map_length. reflexivity.
    - intros y Iy. apply in_map_iff in Iy. destruct Iy as (x & <- & Ix). apply in_seq in Ix. apply in_seq. destruct (H x ltac:(lia)). lia. }
  transitivity (fold_right (fun k t => f k + t) 0 (map s (seq 0 n))).
  - clear. induction (seq 0 n) as [|x l IH]; cbn; [reflexivity|]. rewrite IH. reflexivity.
  - apply fold_perm. exact P.
Qed.

(** The mirror image of a shape function in direction [k]. *)
Section Mirror.
Variables (p k : nat).
Definition mirror (i : nat) : nat := ((i / (S p ^ k * S p)) * (S p ^ k * S p) + (p - digit (S p) i k) * S p ^ k + i mod S p ^ k)%nat.

Lemma mirror_split i : i = ((i / (S p ^ k * S p)) * (S p ^ k * S p) + digit (S p) i k * S p ^ k + i mod S p ^ k)%nat.
Proof.
  unfold digit. assert (Z : (S p ^ k <> 0)%nat) by (apply Nat.pow_nonzero; lia). rewrite <- Nat.div_div by lia.
  pose proof (Nat.div_mod i (S p ^ k) Z) as E. pose proof (Nat.div_mod (i / S p ^ k) (S p) ltac:(lia)) as E'. rewrite E at 1. rewrite E' at 1. ring.
Qed.

Lemma parts A b r : (b < S p)%nat -> (r < S p ^ k)%nat ->
  let i := (A * (S p ^ k * S p) + b * S p ^ k + r)%nat in
  (i / (S p ^ k * S p) = A)%nat /\ digit (S p) i k = b /\ (i mod S p ^ k = r)%nat.
Proof.
  intros Hb Hr i. assert (Z : (S p ^ k <> 0)%nat) by (apply Nat.pow_nonzero; lia). set (N := (S p ^ k)%nat) in *.
  assert (E : i = (r + (A * S p + b) * N)%nat) by (unfold i; ring). unfold digit. fold N. rewrite <- Nat.div_div by lia. rewrite E, Nat.div_add, Nat.mod_add by exact Z.
  rewrite (Nat.div_small r), (Nat.mod_small r) by lia. cbn [Nat.add]. split; [|split; [|reflexivity]].
  - rewrite Nat.div_add_l, Nat.div_small by lia. lia.
  - rewrite Nat.add_comm, Nat.mod_add by lia. apply Nat.mod_small. exact Hb.
Qed.

Lemma digit_le i m : (digit (S p) i m <= p)%nat.
Proof. pose proof (digit_lt (S p) i m). lia. Qed.

Lemma mirror_parts i : (mirror i / (S p ^ k * S p) = i / (S p ^ k * S p))%nat /\ digit (S p) (mirror i) k = (p - digit (S p) i k)%nat /\ (mirror i mod S p ^ k = i mod S p ^ k)%nat.
Proof. apply parts; [lia|]. apply Nat.mod_upper_bound, Nat.pow_nonzero. lia. Qed.

Lemma mirror_mirror i : mirror (mirror i) = i.
Proof.
  destruct (mirror_parts i) as (E1 & E2 & E3). unfold mirror at 1. rewrite E1, E2, E3.
  pose proof (digit_le i k). replace (p - (p - digit (S p) i k))%nat with (digit (S p) i k) by lia. symmetry. apply mirror_split.
Qed.

Lemma mirror_digit i m : m <> k -> digit (S p) (mirror i) m = digit (S p) i m.
Proof.
  intros Hm. destruct (Nat.lt_trichotomy m k) as [L|[L|L]]; [|contradiction|].
  - rewrite (mirror_split i) at 2. unfold mirror.
    replace ((i / (S p ^ k * S p)) * (S p ^ k * S p) + (p - digit (S p) i k) * S p ^ k + i mod S p ^ k)%nat
      with (((i / (S p ^ k * S p)) * S p + (p - digit (S p) i k)) * S p ^ k + i mod S p ^ k)%nat by ring.
    replace ((i / (S p ^ k * S p)) * (S p ^ k * S p) + digit (S p) i k * S p ^ k + i mod S p ^ k)%nat
      with (((i / (S p ^ k * S p)) * S p + digit (S p) i k) * S p ^ k + i mod S p ^ k)%nat by ring.
    rewrite !digit_low by lia. reflexivity.
  - unfold digit. replace (S p ^ m)%nat with ((S p ^ k * S p) * S p ^ (m - k - 1))%nat.
    + assert (Z : (S p ^ k <> 0)%nat) by (apply Nat.pow_nonzero; lia). assert (Z' : (S p ^ (m - k - 1) <> 0)%nat) by (apply Nat.pow_nonzero; lia).
      rewrite <- (Nat.div_div (mirror i) (S p ^ k * S p)), <- (Nat.div_div i (S p ^ k * S p)) by lia. destruct (mirror_parts i) as (E1 & _). rewrite E1. reflexivity.
    + replace m with (k + (1 + (m - k - 1)))%nat at 2 by lia. rewrite !Nat.pow_add_r, Nat.pow_1_r. ring.
Qed.

Lemma mirror_lt d i : (k < d)%nat -> (i < S p ^ d)%nat -> (mirror i < S p ^ d)%nat.
Proof.
  intros Hk Hi. assert (Z : (S p ^ k <> 0)%nat) by (apply Nat.pow_nonzero; lia).
  assert (E : (S p ^ d = S p ^ (d - k - 1) * (S p ^ k * S p))%nat).
  { replace d with ((d - k - 1) + (k + 1))%nat at 1 by lia. rewrite !Nat.pow_add_r, Nat.pow_1_r. reflexivity. }
  assert (Q : (i / (S p ^ k * S p) < S p ^ (d - k - 1))%nat) by (apply Nat.div_lt_upper_bound; [lia|]; rewrite Nat.mul_comm, <- E; exact Hi).
  rewrite E. unfold mirror. pose proof (Nat.mod_upper_bound i (S p ^ k) Z) as R. pose proof (digit_le i k) as D.
  set (A := (i / (S p ^ k * S p))%nat) in *. set (N := (S p ^ k)%nat) in *. set (T := (S p ^ (d - k - 1))%nat) in *. set (r := (i mod N)%nat) in *. set (b := digit (S p) i k) in *. clearbody A N T r b. nia.
Qed.
End Mirror.

Lemma C149_continuous_s : conforming extent G -> (forall g, g_constraint G g = None) -> shared_dofs a G -> continuous_basis G.
Proof using B.
  boxes. intros C K [Hp S] c f c' f' q I Hc Hf N Hq _. destruct (C c f c' f' Hc Hf N) as (Hc' & -> & N' & E).
  pose proof Hf as Hf'. rewrite Nf in Hf'. destruct (opposite_facts f _ Hf') as [O1 O2].
  assert (Kf : (f / 2 < g_dim G)%nat) by (apply Nat.div_lt_upper_bound; lia).
  unfold basis_face. rewrite Nl. unfold box_n_local. set (p := degree a) in *.
  rewrite <- (rsum_involution (Datatypes.S p ^ g_dim G) (fun i => weight G I (g_dof G c' i) * g_face_value G c' (opposite f) i q) (mirror p (f / 2)))
    by (intros; split; [apply mirror_lt; assumption|apply mirror_mirror]).
  apply rsum_ext. intros i Hi. rewrite !FV.
  destruct (mirror_parts p (f / 2) i) as (_ & M & _).
  assert (Sf : (Nat.eqb (f mod 2) 0 = true /\ opposite f mod 2 = 1 /\ f mod 2 = 0 \/ Nat.eqb (f mod 2) 0 = false /\ opposite f mod 2 = 0 /\ f mod 2 = 1)%nat).
  { pose proof (Nat.mod_upper_bound f 2 ltac:(lia)). destruct (f mod 2)%nat as [|[|]]; [left|right|lia]; rewrite O2; auto. }
  assert (Dl := digit_le p i (f / 2)).
  assert (X : box_support a i f = box_support a (mirror p (f / 2) i) (opposite f)).
  { unfold box_support. fold p. rewrite O1, M. f_equal. destruct Sf as [(-> & -> & _)|(-> & -> & _)]; cbn [Nat.eqb]; apply Bool.eq_iff_eq_true; rewrite !Nat.eqb_eq; lia. }
  destruct (box_support a i f) eqn:Sp.
  - assert (D : g_dof G c i = g_dof G c' (mirror p (f / 2) i)).
    { apply (S c f c' (opposite f)); auto.
      - rewrite Nl. exact Hi.
      - rewrite Nl. apply mirror_lt; assumption.
      - apply Bool.orb_true_iff in Sp. unfold on_face, position. fold p in Sp |- *. rewrite !Nat.eqb_eq in Sp. destruct Sp; [lia|assumption].
      - symmetry in X. apply Bool.orb_true_iff in X. unfold on_face, position. fold p in X |- *. rewrite !Nat.eqb_eq in X. destruct X; [lia|assumption].
      - intros m _ Hm. unfold position. fold p. symmetry. apply mirror_digit; assumption. }
    rewrite D. f_equal. unfold box_face_value. fold p. rewrite O1. apply rprod_ext. intros m _. destruct (Nat.eqb_spec m (f / 2)) as [->|Hm].
    + rewrite <- !(end_point a) by (fold p; lia). fold p. rewrite !lagrange_node; try apply degree_le; try apply end_le; try (fold p; apply digit_le).
      unfold end_node. fold p. rewrite M. apply Bool.orb_true_iff in Sp. fold p in Sp. rewrite !Nat.eqb_eq in Sp. destruct Sp as [|Sp]; [lia|].
      rewrite Sp. destruct Sf as [(-> & -> & _)|(-> & -> & _)]; cbn [Nat.eqb].
      * rewrite Nat.sub_0_r, Nat.eqb_refl. reflexivity.
      * rewrite Nat.sub_diag, !Nat.eqb_refl. reflexivity.
    + rewrite mirror_digit by exact Hm. reflexivity.
  - assert (Z1 := box_support_zero a (g_dim G) i f (fun m => gauss_point (n_gauss a) (digit (n_gauss a) q (along_face (f / 2) m))) Hf' Sp).
    symmetry in X. assert (Z2 := box_support_zero a (g_dim G) _ _ (fun m => gauss_point (n_gauss a) (digit (n_gauss a) q (along_face (opposite f / 2) m))) (opposite_lt _ _ Hf') X).
    unfold box_face_value. rewrite Z1, Z2. ring.
Qed.
End Mesh.

Lemma C149_partition_proof a extent G : box_mesh a extent G -> partition_of_unity G.
Proof. exact (C149_partition_s a extent G). Qed.
Lemma C149_parts_proof a extent G : box_mesh a extent G -> gauss_theorem G.
Proof. exact (C149_parts_s a extent G). Qed.
Lemma C149_positive_proof a extent G c i :
  box_mesh a extent G ->
  0 < rsum (g_n_points G) (fun q => g_value G c i q * g_JxW G c q).
Proof. intros H. exact (C149_positive_s a extent G H c i). Qed.
Lemma C149_support_proof a extent G : box_mesh a extent G -> support_correct G.
Proof. exact (C149_support_s a extent G). Qed.
Lemma C149_nodes_proof a extent G c f q :
  box_mesh a extent G -> (f < g_n_faces G)%nat ->
  exists i0, (i0 < g_n_local G)%nat /\ g_support G i0 f = true /\
    forall i, (i < g_n_local G)%nat -> g_node_value G c f i q = if Nat.eqb i i0 then 1 else 0.
Proof. intros H. exact (C149_nodes_s a extent G H c f q). Qed.
Lemma C149_matching_proof a extent G :
  box_mesh a extent G -> conforming extent G -> matching_faces G.
Proof. exact (C149_matching_s a extent G). Qed.
Lemma C149_continuous_proof a extent G :
  box_mesh a extent G -> conforming extent G -> (forall g, g_constraint G g = None) -> shared_dofs a G -> continuous_basis G.
Proof. exact (C149_continuous_s a extent G). Qed.

Lemma no_lines G : (forall g, g_constraint G g = None) -> closed_constraints G.
Proof. intros K g line _ E. rewrite K in E. discriminate. Qed.

Lemma C149_ansatz_proof a extent G : box_discretization a extent G -> valid_ansatz G.
Proof.
  intros (B & C & Vi & K & D). split; [exact Vi|]. split; [apply no_lines, K|]. split; [exact (C149_partition_proof _ _ _ B)|]. split; [exact (C149_parts_proof _ _ _ B)|].
  destruct (g_discontinuous G).
  - split; [exact D|exact (C149_matching_proof _ _ _ B C)].
  - apply C103_faces_cancel_proof; [exact (C149_matching_proof _ _ _ B C)|exact (C149_continuous_proof _ _ _ B C K D)].
Qed.

Lemma C149_lumped_proof a extent G :
  box_discretization a extent G ->
  (forall I, (I < g_n_dofs G)%nat -> exists c i, (c < g_n_cells G)%nat /\ (i < g_n_local G)%nat /\ g_dof G c i = I) ->
  (forall I, (I < g_n_dofs G)%nat -> 0 < lumped G (mass_entry G) I) /\
  rsum (g_n_dofs G) (lumped G (mass_entry G)) = rsum (g_n_cells G) (fun c => volume (g_dim G) (extent c)).
Proof.
  intros (B & C & Vi & K & D) Su. pose proof (C149_partition_proof _ _ _ B) as P. split.
  - intros I HI. apply C102_positive_proof; auto; [apply no_lines, K| |split; [exact HI|apply K]].
    split; [intros; apply (C149_positive_proof a extent G); exact B|]. split; [intros g line e E; rewrite K in E; discriminate|]. intros J [HJ _]. apply Su. exact HJ.
  - rewrite C102_measure_proof; [apply (C149_volume_s a); exact B|exact Vi|apply no_lines, K|exact P].
Qed.

Lemma C149_complete_proof a extent G :
  box_discretization a extent G ->
  (forall I, (I < g_n_dofs G)%nat -> exists c i, (c < g_n_cells G)%nat /\ (i < g_n_local G)%nat /\ g_dof G c i = I) ->
  (forall c f, (c < g_n_cells G)%nat -> (f < g_n_faces G)%nat -> g_neighbor G c f = None ->
     g_at_boundary G c f = true /\ g_boundary_id G c f <> 1%nat) ->
  (forall c, (c < g_n_cells G)%nat -> (g_rank G c < g_n_ranks G)%nat) ->
  (g_discontinuous G = true -> forall c, (c < g_n_cells G)%nat ->
     inverse_matrix (g_n_local G) (cell_mass G c) (g_invert G (cell_mass G c))) ->
  complete_ansatz G.
Proof.
  intros D Su Bo Ra Inv. split; [exact (C149_ansatz_proof _ _ _ D)|]. destruct D as (B & C & Vi & K & D).
  refine (conj (conj _ (conj _ _)) (conj _ (conj _ (conj Ra Inv)))).
  - intros c i _ _. apply (C149_positive_proof a extent G). exact B.
  - intros g line e E. rewrite K in E. discriminate.
  - intros I [HI _]. apply Su. exact HI.
  - exact (C149_support_proof _ _ _ B).
  - intros c f Hc Hf N. destruct (Bo c f Hc Hf N) as [X Y]. split; [exact X|]. split; [exact Y|]. intros i line e _ _ E. rewrite K in E. discriminate.
Qed.
