(** * The properties of the assembled matrices *)
From Coq Require Import Reals List Bool Arith Lia Lra.
From Verif Require Import RVec Assembly SchemeSpec SchemeProofs AssemblySpec AssemblyProofs.
Import ListNotations.
Local Open Scope R_scope.

(** ** C102: the mass matrix *)
Lemma C102_galerkin_proof G I J : free G I ->
  mass_entry G I J = integral G (fun c q => basis G I c q * basis G J c q).
Proof. intros F. apply mass_galerkin, free_not_constrained, F. Qed.

Lemma C102_symmetric_proof G I J : free G I -> free G J -> mass_entry G I J = mass_entry G J I.
Proof.
  intros F F'. rewrite !C102_galerkin_proof by assumption. apply rsum_ext. intros c _. apply rsum_ext. intros q _. ring.
Qed.

Lemma mass_quadratic G x : (forall I, is_constrained G I = true -> x I = 0) ->
  rsum (g_n_dofs G) (fun I => rsum (g_n_dofs G) (fun J => x I * x J * mass_entry G I J)) =
  integral G (fun c q => rsum (g_n_dofs G) (fun I => x I * basis G I c q) * rsum (g_n_dofs G) (fun I => x I * basis G I c q)).
Proof.
  intros Z.
  transitivity (rsum (g_n_dofs G) (fun I => rsum (g_n_dofs G) (fun J => integral G (fun c q => (x I * basis G I c q) * (x J * basis G J c q))))).
  { apply rsum_ext. intros I _. apply rsum_ext. intros J _. destruct (is_constrained G I) eqn:E.
    - rewrite Z by exact E. symmetry. rewrite !Rmult_0_l. apply rs_zero. intros. apply rs_zero. intros. ring.
    - rewrite mass_galerkin by exact E. unfold integral. rewrite <- rsum_scal. apply rsum_ext. intros c _. rewrite <- rsum_scal. apply rsum_ext. intros q _. ring. }
  unfold integral.
  transitivity (rsum (g_n_cells G) (fun c => rsum (g_n_points G) (fun q => rsum (g_n_dofs G) (fun I => rsum (g_n_dofs G) (fun J => x I * basis G I c q * (x J * basis G J c q) * g_JxW G c q))))).
  - transitivity (rsum (g_n_dofs G) (fun I => rsum (g_n_cells G) (fun c => rsum (g_n_points G) (fun q => rsum (g_n_dofs G) (fun J => x I * basis G I c q * (x J * basis G J c q) * g_JxW G c q))))).
    + apply rsum_ext. intros I _. rewrite rs_swap. apply rsum_ext. intros c _. apply rs_swap.
    + rewrite rs_swap. apply rsum_ext. intros c _. apply rs_swap.
  - apply rsum_ext. intros c _. apply rsum_ext. intros q _. rewrite <- rs_scal_r, <- rs_scal_r. apply rsum_ext. intros I _.
    rewrite !rs_scal_r, rsum_scal. ring.
Qed.

Lemma C102_definite_proof G x : (forall I, is_constrained G I = true -> x I = 0) ->
  (forall c q, (c < g_n_cells G)%nat -> (q < g_n_points G)%nat -> 0 <= g_JxW G c q) ->
  0 <= rsum (g_n_dofs G) (fun I => rsum (g_n_dofs G) (fun J => x I * x J * mass_entry G I J)).
Proof.
  intros Z P. rewrite mass_quadratic by exact Z. apply rsum_nonneg. intros c C. apply rsum_nonneg. intros q Q.
  apply Rmult_le_pos; [|auto]. apply Rle_0_sqr.
Qed.

Lemma mass_col_constrained G I J : closed_constraints G -> valid_indices G -> is_constrained G I = false -> is_constrained G J = true ->
  mass_entry G I J = 0.
Proof.
  intros C V X Y. unfold mass_entry, serial, mass_tmp, over_cells. apply rs_zero. intros c L. rewrite square_free by exact X.
  apply distribute_col_zero. intros i Hi. apply weight_constrained; auto.
Qed.
Lemma mass_row_constrained G I J : closed_constraints G -> valid_indices G -> is_constrained G I = true -> is_constrained G J = false ->
  mass_entry G I J = 0.
Proof.
  intros C V X Y. unfold mass_entry, serial, mass_tmp, over_cells. apply rs_zero. intros c L. unfold distribute_square.
  rewrite distribute_row_zero by (intros i Hi; apply weight_constrained; auto).
  destruct (Nat.eqb_spec I J) as [->|]; [congruence|]. cbn. ring.
Qed.

Lemma C102_lumped_proof G I : valid_indices G -> closed_constraints G -> partition_of_unity G -> free G I ->
  lumped G (mass_entry G) I = integral G (fun c q => basis G I c q).
Proof.
  intros V C P F. assert (X := free_not_constrained G I F). unfold lumped.
  rewrite (rsum_ext _ _ (fun J => mass_entry G I J)).
  2:{ intros J _. destruct (is_constrained G J) eqn:E; [|ring]. rewrite mass_col_constrained by assumption. ring. }
  unfold mass_entry, serial, mass_tmp, over_cells, integral. rewrite rs_swap. apply rsum_ext. intros c L.
  rewrite (rsum_ext _ _ (fun J => distribute G (cell_mass G c) (g_dof G c) (g_dof G c) I J)) by (intros; apply square_free; exact X).
  rewrite distribute_sum_col by auto. unfold cell_mass, basis.
  transitivity (rsum (g_n_local G) (fun i => rsum (g_n_points G) (fun q => weight G I (g_dof G c i) * g_value G c i q * g_JxW G c q))).
  - apply rsum_ext. intros i _. rewrite rs_swap, <- rsum_scal. apply rsum_ext. intros q Q.
    rewrite rsum_scal, rs_scal_r. destruct (P c L) as [P1 _]. destruct (P1 q Q) as [-> _]. ring.
  - rewrite rs_swap. apply rsum_ext. intros q _. rewrite rs_scal_r. reflexivity.
Qed.

Lemma C102_constrained_proof G I : valid_indices G -> closed_constraints G -> is_constrained G I = true ->
  lumped G (mass_entry G) I = 0.
Proof.
  intros V C X. unfold lumped. apply rs_zero. intros J _. destruct (is_constrained G J) eqn:E; [ring|].
  rewrite mass_row_constrained by assumption. ring.
Qed.

Lemma measure_integral G : (forall c, (c < g_n_cells G)%nat -> (g_rank G c < g_n_ranks G)%nat) ->
  measure G = integral G (fun _ _ => 1).
Proof.
  intros L. unfold measure, measure_over, over_cells, integral. rewrite rs_swap. apply rsum_ext. intros c C.
  rewrite (rsum_ext _ _ (fun p => (if Nat.eqb p (g_rank G c) then 1 else 0) * cell_measure G c)).
  - rewrite (rs_delta _ (fun _ => cell_measure G c)). destruct (Nat.ltb_spec (g_rank G c) (g_n_ranks G)); [|specialize (L c C); lia].
    unfold cell_measure. apply rsum_ext. intros. ring.
  - intros p _. rewrite (Nat.eqb_sym p). destruct (Nat.eqb (g_rank G c) p); ring.
Qed.

(** Integral of a function from its nodal values. *)
Lemma satisfies_all G U : closed_constraints G -> satisfies_constraints G U -> forall g, (g < g_n_dofs G)%nat ->
  U g = rsum (g_n_dofs G) (fun J => weight G J g * U J).
Proof.
  intros C Sat g L. unfold weight. destruct (g_constraint G g) as [line|] eqn:E.
  - rewrite (Sat g line L E). destruct (C g line L E) as [_ F]. clear E. induction line as [|[a w] line IH]; cbn [fold_right lsum fst snd].
    + rewrite rs_zero; [reflexivity|intros; ring].
    + rewrite IH by (intros e I; apply F; right; exact I).
      rewrite (rsum_ext _ (fun J => (_ + _) * U J) (fun J => (if Nat.eqb J a then 1 else 0) * (w * U J) + fold_right (fun e s => (if Nat.eqb (fst e) J then snd e else 0) + s) 0 line * U J)).
      * rewrite rsum_plus, (rs_delta _ (fun J => w * U J)). destruct (F (a, w) (or_introl eq_refl)) as [B _]. cbn in B.
        destruct (Nat.ltb_spec a (g_n_dofs G)); [reflexivity|lia].
      * intros J _. rewrite (Nat.eqb_sym J a). destruct (Nat.eqb a J); ring.
  - rewrite (rs_delta _ U). destruct (Nat.ltb_spec g (g_n_dofs G)); [reflexivity|lia].
Qed.

Lemma C102_expansion_proof G U c q : valid_indices G -> closed_constraints G -> satisfies_constraints G U -> (c < g_n_cells G)%nat ->
  fe_function G U c q = rsum (g_n_dofs G) (fun I => U I * basis G I c q).
Proof.
  intros V C Sat L. unfold fe_function, basis.
  transitivity (rsum (g_n_dofs G) (fun I => rsum (g_n_local G) (fun i => weight G I (g_dof G c i) * U I * g_value G c i q))).
  - rewrite rs_swap. apply rsum_ext. intros i Hi. rewrite rs_scal_r. f_equal. apply satisfies_all; auto.
  - apply rsum_ext. intros I _. rewrite <- rsum_scal. apply rsum_ext. intros i _. ring.
Qed.

Lemma basis_constrained G I c q : closed_constraints G -> valid_indices G -> (c < g_n_cells G)%nat -> is_constrained G I = true -> basis G I c q = 0.
Proof. intros C V L X. apply rs_zero. intros i Hi. rewrite weight_constrained by auto. ring. Qed.

Lemma C102_integral_proof G U : valid_indices G -> closed_constraints G -> partition_of_unity G -> satisfies_constraints G U ->
  rsum (g_n_dofs G) (fun I => lumped G (mass_entry G) I * U I) = integral G (fe_function G U).
Proof.
  intros V C P Sat.
  transitivity (rsum (g_n_dofs G) (fun I => integral G (fun c q => U I * basis G I c q))).
  - apply rsum_ext. intros I L. destruct (is_constrained G I) eqn:E.
    + rewrite C102_constrained_proof by assumption. rewrite Rmult_0_l. symmetry. apply rs_zero. intros c Lc. apply rs_zero. intros q _.
      rewrite basis_constrained by assumption. ring.
    + rewrite C102_lumped_proof by (try assumption; apply not_constrained_free; assumption). unfold integral.
      rewrite Rmult_comm, <- rsum_scal. apply rsum_ext. intros c _. rewrite <- rsum_scal. apply rsum_ext. intros q _. ring.
  - unfold integral. rewrite rs_swap. apply rsum_ext. intros c L. rewrite rs_swap. apply rsum_ext. intros q _.
    rewrite rs_scal_r. f_equal. symmetry. apply C102_expansion_proof; assumption.
Qed.

Lemma C102_measure_proof G : valid_indices G -> closed_constraints G -> partition_of_unity G ->
  rsum (g_n_dofs G) (lumped G (mass_entry G)) = integral G (fun _ _ => 1).
Proof.
  intros V C P.
  transitivity (rsum (g_n_dofs G) (fun I => lumped G (mass_entry G) I * 1)); [apply rsum_ext; intros; ring|].
  rewrite (C102_integral_proof G (fun _ => 1)); try assumption.
  - unfold integral, fe_function. apply rsum_ext. intros c L. apply rsum_ext. intros q Q. f_equal.
    destruct (P c L) as [P1 _]. destruct (P1 q Q) as [S1 _]. rewrite (rsum_ext _ _ (fun i => g_value G c i q)) by (intros; ring). exact S1.
  - intros g line L E. destruct (C g line L E) as [S1 _]. rewrite (lsum_ext _ snd) by (intros; ring). symmetry. exact S1.
Qed.

Lemma weight_nonneg G : (forall g line e, g_constraint G g = Some line -> In e line -> 0 <= snd e) -> forall I g, 0 <= weight G I g.
Proof.
  intros P I g. unfold weight. destruct (g_constraint G g) as [line|] eqn:E.
  - specialize (P g line). assert (Q : forall e, In e line -> 0 <= snd e) by (intros; apply P; auto). clear P E.
    induction line as [|a line IH]; cbn; [lra|]. assert (0 <= snd a) by (apply Q; left; reflexivity).
    assert (0 <= fold_right (fun e s => (if Nat.eqb (fst e) I then snd e else 0) + s) 0 line) by (apply IH; intros; apply Q; right; assumption).
    destruct (Nat.eqb (fst a) I); lra.
  - destruct (Nat.eqb I g); lra.
Qed.

Lemma basis_integral G I : integral G (fun c q => basis G I c q) =
  rsum (g_n_cells G) (fun c => rsum (g_n_local G) (fun i => weight G I (g_dof G c i) * rsum (g_n_points G) (fun q => g_value G c i q * g_JxW G c q))).
Proof.
  apply rsum_ext. intros c _. unfold basis. symmetry.
  transitivity (rsum (g_n_local G) (fun i => rsum (g_n_points G) (fun q => weight G I (g_dof G c i) * g_value G c i q * g_JxW G c q))).
  - apply rsum_ext. intros i _. rewrite <- rsum_scal. apply rsum_ext. intros. ring.
  - rewrite rs_swap. apply rsum_ext. intros q _. apply rs_scal_r.
Qed.

Lemma rs_pos n f k : (k < n)%nat -> (forall j, (j < n)%nat -> 0 <= f j) -> 0 < f k -> 0 < rsum n f.
Proof.
  intros K P Q. induction n as [|n IH]; [lia|]. cbn. assert (0 <= f n) by (apply P; lia).
  destruct (Nat.eq_dec k n) as [->|].
  - assert (0 <= rsum n f) by (apply rsum_nonneg; intros; apply P; lia). lra.
  - assert (0 < rsum n f) by (apply IH; [lia|intros; apply P; lia]). lra.
Qed.

Lemma C102_positive_proof G I : valid_indices G -> closed_constraints G -> partition_of_unity G -> positive_shapes G -> free G I ->
  0 < lumped G (mass_entry G) I <= integral G (fun _ _ => 1).
Proof.
  intros V C P (Q1 & Q2 & Q3) F.
  assert (W := weight_nonneg G Q2).
  assert (Nn : forall J, 0 <= lumped G (mass_entry G) J).
  { intros J. destruct (is_constrained G J) eqn:E; [rewrite C102_constrained_proof by assumption; lra|].
    destruct (Nat.lt_ge_cases J (g_n_dofs G)) as [L|L].
    - rewrite C102_lumped_proof by (try assumption; apply not_constrained_free; assumption). rewrite basis_integral.
      apply rsum_nonneg. intros c Lc. apply rsum_nonneg. intros i Li. apply Rmult_le_pos; [apply W|apply Rlt_le, Q1; assumption].
    - unfold lumped. rewrite rs_zero; [lra|]. intros J' _. rewrite mass_galerkin by exact E.
      unfold integral. rewrite rs_zero; [ring|]. intros c Lc. apply rs_zero. intros q _.
      unfold basis at 1. rewrite rs_zero; [ring|]. intros i Li. assert (B := V c i Lc Li).
      destruct (Req_dec (weight G J (g_dof G c i)) 0) as [->|Z]; [ring|]. exfalso.
      unfold weight in Z. destruct (g_constraint G (g_dof G c i)) as [line|] eqn:Ec.
      + destruct (fold_weight_nonzero _ _ Z) as (e & A & <-). destruct (C _ _ B Ec) as [_ Fe]. destruct (Fe e A) as [Fl _]. lia.
      + destruct (Nat.eqb_spec J (g_dof G c i)); [lia|lra]. }
  split.
  - rewrite C102_lumped_proof by assumption. rewrite basis_integral. destruct (Q3 I F) as (c & i & Lc & Li & E).
    assert (T : forall c i, (c < g_n_cells G)%nat -> (i < g_n_local G)%nat -> 0 <= weight G I (g_dof G c i) * rsum (g_n_points G) (fun q => g_value G c i q * g_JxW G c q))
      by (intros; apply Rmult_le_pos; [apply W|apply Rlt_le, Q1; assumption]).
    apply (rs_pos _ _ c Lc); [intros; apply rsum_nonneg; auto|]. apply (rs_pos _ _ i Li); [auto|].
    rewrite E. destruct F as [_ F]. rewrite (weight_free G I I F), Nat.eqb_refl. rewrite Rmult_1_l. auto.
  - rewrite <- C102_measure_proof by assumption. destruct F as [F _].
    assert (forall n, (I < n)%nat -> lumped G (mass_entry G) I <= rsum n (lumped G (mass_entry G))) as Z; [|apply Z; exact F].
    induction n as [|n IH]; [lia|]. intros L. cbn. assert (A := Nn n). destruct (Nat.eq_dec I n) as [->|].
    + assert (0 <= rsum n (lumped G (mass_entry G))) by (apply rsum_nonneg; auto). lra.
    + assert (lumped G (mass_entry G) I <= rsum n (lumped G (mass_entry G))) by (apply IH; lia). lra.
Qed.

(** ** C103: the vectors c_ij *)
Lemma C103_continuous_proof G d I J : g_discontinuous G = false -> free G I ->
  cij_entry G d I J = integral G (fun c q => basis G I c q * basis_grad G J c q d).
Proof. intros D F. apply cij_galerkin_cg; [exact D|apply free_not_constrained, F]. Qed.

Lemma C103_discontinuous_proof G d I J : g_discontinuous G = true -> free G I ->
  cij_entry G d I J = integral G (fun c q => basis G I c q * basis_grad G J c q d)
    + 1 / 2 * interior_integral G (fun c f c' f' q =>
        g_normal G c f q d * basis_face G I c f q * (basis_face G J c' f' q - basis_face G J c f q)).
Proof. intros D F. apply cij_galerkin_dg; [exact D|apply free_not_constrained, F]. Qed.

Lemma ansatz_faces G : valid_ansatz G -> g_discontinuous G = true -> matching_faces G.
Proof. intros (_ & _ & _ & _ & X) D. rewrite D in X. apply X. Qed.

Lemma C103_row_sum_proof G d I : valid_ansatz G -> free G I -> rsum (g_n_dofs G) (fun J => cij_entry G d I J) = 0.
Proof.
  intros A F. assert (B := ansatz_faces G A). destruct A as (V & C & P & _). apply cij_row_sum; auto. apply free_not_constrained, F.
Qed.

(** Gauss for the basis functions. *)
Lemma basis_gauss G d I J c : gauss_theorem G -> (c < g_n_cells G)%nat -> (d < g_dim G)%nat ->
  rsum (g_n_points G) (fun q => (basis G I c q * basis_grad G J c q d + basis G J c q * basis_grad G I c q d) * g_JxW G c q) =
  rsum (g_n_faces G) (fun f => rsum (g_n_face_points G) (fun q => g_normal G c f q d * basis_face G I c f q * basis_face G J c f q * g_face_JxW G c f q)).
Proof.
  intros Ga L D.
  assert (A := distribute_product G (g_n_points G) (fun i q => g_value G c i q) (fun j q => g_grad G c j q d) (g_JxW G c) (g_dof G c) (g_dof G c) I J).
  assert (B := distribute_product G (g_n_points G) (fun i q => g_grad G c i q d) (fun j q => g_value G c j q) (g_JxW G c) (g_dof G c) (g_dof G c) I J).
  cbv beta in A, B.
  transitivity (rsum (g_n_points G) (fun q => basis G I c q * basis_grad G J c q d * g_JxW G c q) + rsum (g_n_points G) (fun q => basis_grad G I c q d * basis G J c q * g_JxW G c q)).
  { rewrite <- rsum_plus. apply rsum_ext. intros. ring. }
  unfold basis, basis_grad at 1. unfold basis, basis_grad in A, B |- *. rewrite <- A, <- B, <- distribute_plus.
  rewrite (distribute_ext G _ (fun i j => rsum (g_n_faces G) (fun f => rsum (g_n_face_points G) (fun q => g_face_value G c f i q * g_face_value G c f j q * (g_normal G c f q d * g_face_JxW G c f q))))).
  - rewrite distribute_rsum. apply rsum_ext. intros f F.
    rewrite (distribute_product G (g_n_face_points G) (fun i q => g_face_value G c f i q) (fun j q => g_face_value G c f j q) (fun q => g_normal G c f q d * g_face_JxW G c f q)).
    apply rsum_ext. intros q _. unfold basis_face. ring.
  - intros i j Hi Hj. rewrite <- rsum_plus. etransitivity; [|etransitivity; [apply (Ga c d i j L D Hi Hj)|]].
    + apply rsum_ext. intros. ring.
    + apply rsum_ext. intros f _. apply rsum_ext. intros. ring.
Qed.

Lemma integral_plus G u v : integral G u + integral G v = integral G (fun c q => u c q + v c q).
Proof. unfold integral. rewrite <- rsum_plus. apply rsum_ext. intros. rewrite <- rsum_plus. apply rsum_ext. intros. ring. Qed.
Lemma interior_plus G u v : interior_integral G u + interior_integral G v = interior_integral G (fun c f c' f' q => u c f c' f' q + v c f c' f' q).
Proof.
  unfold interior_integral. rewrite <- rsum_plus. apply rsum_ext. intros. rewrite <- rsum_plus. apply rsum_ext. intros.
  destruct g_neighbor as [[c' f']|]; [|ring]. rewrite <- rsum_plus. apply rsum_ext. intros. ring.
Qed.

Lemma sides_split G (F : nat -> nat -> nat -> R) :
  rsum (g_n_cells G) (fun c => rsum (g_n_faces G) (fun f => rsum (g_n_face_points G) (fun q => F c f q * g_face_JxW G c f q))) =
  boundary_integral G F + interior_integral G (fun c f _ _ q => F c f q).
Proof.
  unfold boundary_integral, interior_integral. rewrite <- rsum_plus. apply rsum_ext. intros. rewrite <- rsum_plus. apply rsum_ext. intros.
  destruct g_neighbor as [[c' f']|]; ring.
Qed.

(** An integrand that changes sign when the sides are exchanged. *)
Lemma interior_antisymmetric G F : matching_faces G ->
  (forall c f c' f' q, (c < g_n_cells G)%nat -> (f < g_n_faces G)%nat -> g_neighbor G c f = Some (c', f') -> (q < g_n_face_points G)%nat ->
     F c' f' c f q = - F c f c' f' q) ->
  interior_integral G F = 0.
Proof.
  intros Mf An. assert (X : interior_integral G F = - interior_integral G F); [|lra].
  unfold interior_integral at 1.
  rewrite (face_swap (g_neighbor G) _ _ (fun c f c' f' => rsum (g_n_face_points G) (fun q => F c f c' f' q * g_face_JxW G c f q))).
  - unfold interior_integral. replace (- rsum (g_n_cells G) _) with (-1 * rsum (g_n_cells G) (fun c => rsum (g_n_faces G) (fun f =>
      match g_neighbor G c f with None => 0 | Some (c', f') => rsum (g_n_face_points G) (fun q => F c f c' f' q * g_face_JxW G c f q) end))) by ring.
    rewrite <- rsum_scal. apply rsum_ext. intros c C. rewrite <- rsum_scal. apply rsum_ext. intros f Hf.
    destruct (g_neighbor G c f) as [[c' f']|] eqn:N; [|ring]. rewrite <- rsum_scal. apply rsum_ext. intros q Q.
    destruct (Mf c f c' f' C Hf N) as (_ & _ & _ & M). destruct (M q Q) as [-> _]. rewrite (An c f c' f' q C Hf N Q). ring.
  - intros c f c' f' C Hf N. destruct (Mf c f c' f' C Hf N) as (X1 & X2 & X3 & _). auto.
Qed.

Lemma C103_faces_cancel_proof G : matching_faces G -> continuous_basis G -> faces_cancel G.
Proof.
  intros Mf Cb d I J D FI FJ. apply interior_antisymmetric; [exact Mf|]. intros c f c' f' q C F N Q.
  destruct (Mf c f c' f' C F N) as (_ & _ & _ & M). destruct (M q Q) as [_ M']. rewrite M'.
  rewrite (Cb c f c' f' q I C F N Q FI), (Cb c f c' f' q J C F N Q FJ). ring.
Qed.

Lemma C103_boundary_proof G d I J : valid_ansatz G -> (d < g_dim G)%nat -> free G I -> free G J ->
  cij_entry G d I J + cij_entry G d J I =
  boundary_integral G (fun c f q => g_normal G c f q d * basis_face G I c f q * basis_face G J c f q).
Proof.
  intros A D FI FJ. assert (B := ansatz_faces G A). destruct A as (V & C & P & Ga & X).
  assert (Cells : integral G (fun c q => basis G I c q * basis_grad G J c q d) + integral G (fun c q => basis G J c q * basis_grad G I c q d) =
    boundary_integral G (fun c f q => g_normal G c f q d * basis_face G I c f q * basis_face G J c f q) +
    interior_integral G (fun c f _ _ q => g_normal G c f q d * basis_face G I c f q * basis_face G J c f q)).
  { rewrite <- sides_split, integral_plus. unfold integral. apply rsum_ext. intros c L. apply basis_gauss; assumption. }
  destruct (g_discontinuous G) eqn:E.
  - rewrite !C103_discontinuous_proof by assumption.
    match goal with |- ?a + 1 / 2 * ?b + (?c + 1 / 2 * ?e) = ?r => replace (a + 1 / 2 * b + (c + 1 / 2 * e)) with ((a + c) + 1 / 2 * (b + e)) by ring end.
    rewrite Cells, interior_plus.
    match goal with |- ?a + ?b + 1 / 2 * ?c = ?a => assert (b + b + c = 0); [|lra] end.
    rewrite !interior_plus. apply interior_antisymmetric; [apply X|]. intros c f c' f' q Lc Lf N Q.
    destruct (B eq_refl c f c' f' Lc Lf N) as (_ & _ & _ & M). destruct (M q Q) as [_ M']. rewrite M'. ring.
  - rewrite !C103_continuous_proof by assumption. rewrite Cells, (X d I J D FI FJ). ring.
Qed.

Lemma C103_skew_proof G d I J : valid_ansatz G -> (d < g_dim G)%nat -> free G I -> free G J ->
  (forall c f q, (c < g_n_cells G)%nat -> (f < g_n_faces G)%nat -> (q < g_n_face_points G)%nat -> g_neighbor G c f = None ->
     basis_face G I c f q * basis_face G J c f q = 0) ->
  cij_entry G d J I = - cij_entry G d I J.
Proof.
  intros A D FI FJ Z. assert (S := C103_boundary_proof G d I J A D FI FJ).
  assert (E : boundary_integral G (fun c f q => g_normal G c f q d * basis_face G I c f q * basis_face G J c f q) = 0); [|lra].
  apply rs_zero. intros c C. apply rs_zero. intros f F. destruct (g_neighbor G c f) eqn:N; [reflexivity|]. apply rs_zero. intros q Q.
  rewrite Rmult_assoc, (Rmult_assoc (g_normal G c f q d)).
  replace (g_normal G c f q d * (basis_face G I c f q * (basis_face G J c f q * g_face_JxW G c f q)))
    with (g_normal G c f q d * (basis_face G I c f q * basis_face G J c f q) * g_face_JxW G c f q) by ring.
  rewrite Z by assumption. ring.
Qed.

Lemma cij_row_constrained G d I J : closed_constraints G -> valid_indices G -> (g_discontinuous G = true -> matching_faces G) ->
  is_constrained G I = true -> is_constrained G J = false -> cij_entry G d I J = 0.
Proof.
  intros C V Mf X Y. unfold cij_entry, serial, cij_tmp, over_cells. apply rs_zero. intros c L. unfold distribute_square.
  rewrite distribute_row_zero by (intros i Hi; apply weight_constrained; auto).
  destruct (Nat.eqb_spec I J) as [->|]; [congruence|]. cbn [andb]. rewrite !Rplus_0_l. destruct (g_discontinuous G); [|reflexivity].
  apply rs_zero. intros f F. destruct (g_neighbor G c f) as [[c' f']|]; [|reflexivity].
  apply distribute_row_zero. intros i Hi. apply weight_constrained; auto.
Qed.

Lemma C103_column_sum_proof G d J : valid_ansatz G -> (d < g_dim G)%nat -> free G J ->
  rsum (g_n_dofs G) (fun I => cij_entry G d I J) = boundary_integral G (fun c f q => g_normal G c f q d * basis_face G J c f q).
Proof.
  intros A D FJ. assert (Mf := ansatz_faces G A). assert (V := A). destruct V as (V & C & P & Ga & X).
  assert (Row := C103_row_sum_proof G d J A FJ).
  transitivity (rsum (g_n_dofs G) (fun I => if is_constrained G I then 0 else
     boundary_integral G (fun c f q => g_normal G c f q d * basis_face G I c f q * basis_face G J c f q))).
  - transitivity (rsum (g_n_dofs G) (fun I => cij_entry G d I J + cij_entry G d J I)); [rewrite rsum_plus; match goal with |- ?a = _ + ?b => replace b with 0 by (symmetry; exact Row) end; ring|].
    apply rsum_ext. intros I L. destruct (is_constrained G I) eqn:E.
    + rewrite cij_row_constrained by (try assumption; apply free_not_constrained; exact FJ).
      rewrite Rplus_0_l. unfold cij_entry, serial, cij_tmp, over_cells. apply rs_zero. intros c Lc.
      rewrite square_free by (apply free_not_constrained; exact FJ).
      rewrite distribute_col_zero by (intros i Hi; apply weight_constrained; auto). rewrite Rplus_0_l.
      destruct (g_discontinuous G); [|reflexivity]. apply rs_zero. intros f F. destruct (g_neighbor G c f) as [[c' f']|] eqn:N; [|reflexivity].
      destruct (Mf eq_refl c f c' f' Lc F N) as (C' & _). apply distribute_col_zero. intros i Hi. apply weight_constrained; auto.
    + apply C103_boundary_proof; try assumption. apply not_constrained_free; assumption.
  - transitivity (rsum (g_n_dofs G) (fun I => boundary_integral G (fun c f q => g_normal G c f q d * basis_face G I c f q * basis_face G J c f q))).
    { apply rsum_ext. intros I L. destruct (is_constrained G I) eqn:E; [|reflexivity]. symmetry.
      apply rs_zero. intros c Lc. apply rs_zero. intros f F. destruct g_neighbor; [reflexivity|]. apply rs_zero. intros q Q.
      unfold basis_face at 1. rewrite rs_zero; [ring|]. intros i Hi. rewrite weight_constrained by auto. ring. }
    unfold boundary_integral. rewrite rs_swap. apply rsum_ext. intros c L. rewrite rs_swap. apply rsum_ext. intros f F.
    destruct (g_neighbor G c f); [apply rs_zero; reflexivity|]. rewrite rs_swap. apply rsum_ext. intros q Q.
    rewrite (rsum_ext _ _ (fun I => basis_face G I c f q * (g_normal G c f q d * basis_face G J c f q * g_face_JxW G c f q))) by (intros; ring).
    rewrite rs_scal_r. unfold basis_face at 1. rewrite (basis_sum G c C V L (fun i => g_face_value G c f i q)).
    destruct (P c L) as [_ P2]. rewrite P2 by assumption. ring.
Qed.
