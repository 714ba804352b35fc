(** * The assembled mesh has what the time step requires *)
From Coq Require Import Reals List Bool Arith Lia Lra.
From Verif Require Import RVec Scheme BoundaryMap BoundaryMapSpec BoundaryPairs SchemeSpec SchemeProofs SchemeFinal AssemblySpec AssemblyProofs AssemblyFinal AssemblyRanks.
From Verif Require Import Assembly.
Import ListNotations.
Local Open Scope R_scope.

Section Mesh.
Variable G : geometry.
Variable eps : R.

Lemma stencil_free I : is_constrained G I = false ->
  stencil G I = I :: filter (fun J => negb (Nat.eqb J I) && negb (is_constrained G J) && (couples_cell G I J || couples_face G I J)) (seq 0 (g_n_dofs G)).
Proof. unfold stencil. intros ->. reflexivity. Qed.
Lemma stencil_in I J : is_constrained G I = false -> In J (stencil G I) <->
  J = I \/ (J < g_n_dofs G)%nat /\ J <> I /\ is_constrained G J = false /\ (couples_cell G I J || couples_face G I J) = true.
Proof.
  intros X. rewrite stencil_free by exact X. cbn [In]. rewrite filter_In, in_seq, !andb_true_iff, !negb_true_iff, Nat.eqb_neq. split.
  - intros [->|(A & (B & C) & D)]; [auto|]. right. repeat split; auto; lia.
  - intros [->|(A & B & C & D)]; [auto|]. right. repeat split; auto; lia.
Qed.

Lemma couples_cell_sym I J : couples_cell G I J = couples_cell G J I.
Proof. unfold couples_cell. induction (seq 0 (g_n_cells G)) as [|c l IH]; [reflexivity|]. cbn. rewrite IH, (andb_comm (touches G I c)). reflexivity. Qed.
Lemma couples_face_half I J : (g_discontinuous G = true -> matching_faces G) -> couples_face G I J = true -> couples_face G J I = true.
Proof.
  intros Mf. unfold couples_face. destruct (g_discontinuous G); [|discriminate]. cbn [andb]. specialize (Mf eq_refl). rewrite !existsb_exists.
  intros (c & C & X). apply existsb_exists in X. destruct X as (f & F & X). apply in_seq in C, F.
  destruct (g_neighbor G c f) as [[c' f']|] eqn:N; [|discriminate]. apply andb_true_iff in X. destruct X as [X Y].
  destruct (Mf c f c' f' ltac:(lia) ltac:(lia) N) as (C' & F' & N' & _). exists c'. split; [apply in_seq; lia|].
  apply existsb_exists. exists f'. split; [apply in_seq; lia|]. rewrite N', X, Y. reflexivity.
Qed.
Lemma couples_face_sym I J : (g_discontinuous G = true -> matching_faces G) -> couples_face G I J = couples_face G J I.
Proof. intros Mf. apply Bool.eq_iff_eq_true. split; apply couples_face_half; exact Mf. Qed.

Lemma pattern_proof : (g_discontinuous G = true -> matching_faces G) -> symmetric_pattern (assembled_mesh G eps).
Proof.
  intros Mf I L. cbn in L. cbn [columns assembled_mesh]. destruct (is_constrained G I) eqn:X.
  - unfold stencil. rewrite X. exists []. split; [reflexivity|]. split; [repeat constructor; auto|intros j []].
  - rewrite stencil_free by exact X. eexists. split; [reflexivity|]. split.
    + constructor; [|apply NoDup_filter, seq_NoDup]. rewrite filter_In, Nat.eqb_refl. cbn. intros [_ E]. discriminate.
    + intros J Hj. rewrite filter_In, in_seq, !andb_true_iff, !negb_true_iff, Nat.eqb_neq in Hj. destruct Hj as (A & (B & C) & D).
      split; [cbn; lia|]. apply stencil_in; [exact C|]. right. rewrite (couples_cell_sym J I), (couples_face_sym J I Mf). auto.
Qed.

(** Entries outside of the pattern. *)
Lemma touches_false I c : touches G I c = false -> forall i, (i < g_n_local G)%nat -> weight G I (g_dof G c i) = 0.
Proof.
  intros X i Hi. destruct (Req_dec (weight G I (g_dof G c i)) 0) as [Z|Z]; [exact Z|]. apply weight_reaches in Z. exfalso.
  assert (touches G I c = true); [|congruence]. apply existsb_exists. exists i. split; [apply in_seq; lia|exact Z].
Qed.
Lemma couples_cell_false I J c : couples_cell G I J = false -> (c < g_n_cells G)%nat -> touches G I c = false \/ touches G J c = false.
Proof.
  intros X C. destruct (touches G I c) eqn:A; [|auto]. destruct (touches G J c) eqn:B; [|auto]. exfalso.
  assert (couples_cell G I J = true); [|congruence]. apply existsb_exists. exists c. rewrite A, B. split; [apply in_seq; lia|reflexivity].
Qed.
Lemma touches_face_false I c f i : touches_face G I c f = false -> (i < g_n_local G)%nat -> g_support G i f = false \/ weight G I (g_dof G c i) = 0.
Proof.
  intros X Hi. destruct (g_support G i f) eqn:Su; [|auto]. right.
  destruct (Req_dec (weight G I (g_dof G c i)) 0) as [Z|Z]; [exact Z|]. apply weight_reaches in Z. exfalso.
  assert (touches_face G I c f = true); [|congruence]. apply existsb_exists. exists i. rewrite Su, Z. split; [apply in_seq; lia|reflexivity].
Qed.
Lemma couples_face_false I J c f c' f' : g_discontinuous G = true -> couples_face G I J = false -> (c < g_n_cells G)%nat -> (f < g_n_faces G)%nat ->
  g_neighbor G c f = Some (c', f') -> touches_face G I c f = false \/ touches_face G J c' f' = false.
Proof.
  intros D X C F N. destruct (touches_face G I c f) eqn:A; [|auto]. destruct (touches_face G J c' f') eqn:B; [|auto]. exfalso.
  assert (couples_face G I J = true); [|congruence]. unfold couples_face. rewrite D. apply existsb_exists. exists c. split; [apply in_seq; lia|].
  apply existsb_exists. exists f. split; [apply in_seq; lia|]. rewrite N, A, B. reflexivity.
Qed.

Lemma square_outside I J c A : is_constrained G I = false -> couples_cell G I J = false -> (c < g_n_cells G)%nat -> distribute_square G c A I J = 0.
Proof.
  intros X Z C. rewrite square_free by exact X. destruct (couples_cell_false I J c Z C) as [T|T].
  - apply distribute_row_zero, touches_false, T.
  - apply distribute_col_zero, touches_false, T.
Qed.
Lemma face_outside I J c f c' f' A : g_discontinuous G = true -> couples_face G I J = false -> (c < g_n_cells G)%nat -> (f < g_n_faces G)%nat ->
  g_neighbor G c f = Some (c', f') ->
  (forall i j, (i < g_n_local G)%nat -> (j < g_n_local G)%nat -> g_support G i f = false \/ g_support G j f' = false -> A i j = 0) ->
  distribute G A (g_dof G c) (g_dof G c') I J = 0.
Proof.
  intros D Z C F N Su. apply rs_zero. intros i Hi. apply rs_zero. intros j Hj.
  destruct (couples_face_false I J c f c' f' D Z C F N) as [T|T].
  - destruct (touches_face_false I c f i T Hi) as [S|S]; [rewrite (Su i j Hi Hj (or_introl S)); ring|rewrite S; ring].
  - destruct (touches_face_false J c' f' j T Hj) as [S|S]; [rewrite (Su i j Hi Hj (or_intror S)); ring|rewrite S; ring].
Qed.

Lemma C106_outside_proof e m d I J : valid_ansatz G -> support_correct G -> 0 <= e -> free G I -> (J < g_n_dofs G)%nat -> ~ In J (stencil G I) ->
  mass_entry G I J = 0 /\ cij_entry G d I J = 0 /\ mass_inverse_entry G I J = 0 /\ incidence_entry G e m I J = 0.
Proof.
  intros A Su E FI LJ N. assert (Mf := ansatz_faces G A). destruct A as (V & C & P & Ga & _). assert (X := free_not_constrained G I FI).
  destruct (is_constrained G J) eqn:Y.
  { assert (Wj : forall c i, (c < g_n_cells G)%nat -> (i < g_n_local G)%nat -> weight G J (g_dof G c i) = 0) by (intros; apply weight_constrained; auto).
    assert (Sq : forall c A, (c < g_n_cells G)%nat -> distribute_square G c A I J = 0) by (intros; rewrite square_free by exact X; apply distribute_col_zero; auto).
    split; [|split; [|split]].
    - apply rs_zero. intros. apply Sq. assumption.
    - apply rs_zero. intros c Lc. rewrite Sq by exact Lc. rewrite Rplus_0_l. destruct (g_discontinuous G); [|reflexivity].
      apply rs_zero. intros f F. destruct (g_neighbor G c f) as [[c' f']|] eqn:Nb; [|reflexivity]. destruct (Mf eq_refl c f c' f' Lc F Nb) as (C' & _).
      apply distribute_col_zero. auto.
    - unfold mass_inverse_entry, serial, mass_inverse_tmp. destruct (g_discontinuous G); [|reflexivity]. apply rs_zero. intros. apply Sq. assumption.
    - unfold incidence_entry, serial, incidence_tmp. destruct (g_discontinuous G); [|reflexivity]. apply rs_zero. intros c Lc.
      apply rs_zero. intros f F. destruct (g_neighbor G c f) as [[c' f']|] eqn:Nb; [|reflexivity]. destruct (Mf eq_refl c f c' f' Lc F Nb) as (C' & _).
      apply distribute_col_zero. auto. }
  assert (Nc : couples_cell G I J = false /\ couples_face G I J = false).
  { destruct (couples_cell G I J) eqn:A1, (couples_face G I J) eqn:A2; auto; exfalso; apply N; apply stencil_in; try exact X;
      destruct (Nat.eq_dec J I); auto; right; rewrite A1, A2; auto. }
  destruct Nc as [Z1 Z2].
  split; [|split; [|split]].
  - apply rs_zero. intros c Lc. apply square_outside; assumption.
  - apply rs_zero. intros c Lc. rewrite square_outside by assumption. rewrite Rplus_0_l. destruct (g_discontinuous G) eqn:D; [|reflexivity].
    apply rs_zero. intros f F. destruct (g_neighbor G c f) as [[c' f']|] eqn:Nb; [|reflexivity]. destruct (Mf eq_refl c f c' f' Lc F Nb) as (C' & F' & _).
    apply (face_outside I J c f c' f'); try assumption. intros i j Hi Hj [S|S]; apply rs_zero; intros q _.
    + destruct (Su c f i Lc F Hi S) as [-> _]. ring.
    + destruct (Su c' f' j C' F' Hj S) as [-> _]. ring.
  - unfold mass_inverse_entry, serial, mass_inverse_tmp. destruct (g_discontinuous G); [|reflexivity]. apply rs_zero. intros c Lc. apply square_outside; assumption.
  - unfold incidence_entry, serial, incidence_tmp. destruct (g_discontinuous G) eqn:D; [|reflexivity]. apply rs_zero. intros c Lc.
    apply rs_zero. intros f F. destruct (g_neighbor G c f) as [[c' f']|] eqn:Nb; [|reflexivity]. destruct (Mf eq_refl c f c' f' Lc F Nb) as (C' & F' & _).
    apply (face_outside I J c f c' f'); try assumption. intros i j Hi Hj Hs. apply rs_zero. intros q _.
    assert (Zero : g_node_value G c f i q * g_node_value G c' f' j q = 0).
    { destruct Hs as [S|S]; [destruct (Su c f i Lc F Hi S) as [_ ->]|destruct (Su c' f' j C' F' Hj S) as [_ ->]]; ring. }
    rewrite Zero, Rabs_R0. destruct Rlt_dec; [lra|reflexivity].
Qed.

(** Sums over a row. *)
Lemma lsum_filter {A} (p : A -> bool) (f : A -> R) l : lsum f (filter p l) = lsum (fun x => if p x then f x else 0) l.
Proof. induction l as [|a l IH]; [reflexivity|]. cbn [filter lsum]. destruct (p a); cbn [lsum]; rewrite IH; ring. Qed.
Lemma row_sum I F : free G I -> (forall J, (J < g_n_dofs G)%nat -> ~ In J (stencil G I) -> F J = 0) ->
  lsum F (stencil G I) = rsum (g_n_dofs G) F.
Proof.
  intros FI Z. assert (X := free_not_constrained G I FI). destruct FI as [L _]. assert (In_ := stencil_in I). rewrite stencil_free by exact X. cbn [lsum].
  rewrite lsum_filter, <- rsum_lsum.
  rewrite (rsum_ext _ F (fun J => (if Nat.eqb J I then 1 else 0) * F J + (if negb (Nat.eqb J I) && negb (is_constrained G J) && (couples_cell G I J || couples_face G I J) then F J else 0))).
  - rewrite rsum_plus, (rs_delta _ F). destruct (Nat.ltb_spec I (g_n_dofs G)); [reflexivity|lia].
  - intros J LJ. destruct (Nat.eqb_spec J I) as [->|N]; cbn [negb andb]; [ring|].
    destruct (negb (is_constrained G J) && (couples_cell G I J || couples_face G I J)) eqn:E; [ring|]. rewrite Z; [ring|exact LJ|].
    intros Hin. apply In_ in Hin; [|exact X]. destruct Hin as [?|(_ & _ & E1 & E2)]; [congruence|]. rewrite E1, E2 in E. discriminate.
Qed.

Lemma nth_cij x I J : nth x (map (fun d => cij_entry G d I J) (seq 0 (g_dim G))) 0 = if Nat.ltb x (g_dim G) then cij_entry G x I J else 0.
Proof.
  destruct (Nat.ltb_spec x (g_dim G)) as [L|L].
  - rewrite (nth_indep _ 0 (cij_entry G 0 I J)) by (rewrite map_length, seq_length; exact L).
    rewrite (map_nth (fun d => cij_entry G d I J)). rewrite seq_nth by exact L. reflexivity.
  - apply nth_overflow. rewrite map_length, seq_length. exact L.
Qed.

Lemma active_free I : active (assembled_mesh G eps) I -> free G I.
Proof.
  intros [L N]. apply not_constrained_free; [exact L|]. destruct (is_constrained G I) eqn:X; [|reflexivity].
  exfalso. apply N. cbn. unfold stencil. rewrite X. reflexivity.
Qed.
Lemma column_free I J : active (assembled_mesh G eps) I -> In J (columns (assembled_mesh G eps) I) -> free G J.
Proof.
  intros A Hin. assert (F := active_free I A). cbn in Hin. apply stencil_in in Hin; [|apply free_not_constrained, F].
  destruct Hin as [->|(L & _ & X & _)]; [exact F|apply not_constrained_free; assumption].
Qed.

(** Degrees of freedom that do not vanish on the boundary. *)
Lemma trace_on_boundary I c f q : valid_indices G -> closed_constraints G -> support_correct G -> boundary_marked G ->
  (c < g_n_cells G)%nat -> (f < g_n_faces G)%nat -> g_neighbor G c f = None -> basis_face G I c f q <> 0 ->
  on_boundary (g_n_dofs G) (boundary_visits G) I.
Proof.
  intros V Cl Su B C F N Z. apply rs_nonzero in Z. destruct Z as (i & Hi & Z).
  assert (Zw : weight G I (g_dof G c i) <> 0) by (intros E; apply Z; rewrite E; ring).
  assert (Zs : g_support G i f = true). { destruct (g_support G i f) eqn:S; [reflexivity|]. destruct (Su c f i C F Hi S) as [S' _]. exfalso. apply Z. rewrite S'. ring. }
  assert (Vis : forall c f i, (c < g_n_cells G)%nat -> (f < g_n_faces G)%nat -> (i < g_n_local G)%nat -> g_neighbor G c f = None -> g_support G i f = true ->
            on_boundary (g_n_dofs G) (boundary_visits G) (g_dof G c i)).
  { clear - V B. intros c f i C F Hi N S. destruct (B c f C F N) as (B1 & B2 & _). split; [apply V; assumption|].
    exists (FVisit false (g_at_boundary G c f) (g_support G i f) (g_boundary_id G c f) (g_dof G c i)). split; [|cbn; auto].
    apply in_flat_map. exists c. split; [apply in_seq; lia|]. apply in_flat_map. exists f. split; [apply in_seq; lia|].
    apply in_map_iff. exists i. split; [reflexivity|apply in_seq; lia]. }
  unfold weight in Zw. destruct (g_constraint G (g_dof G c i)) as [line|] eqn:E.
  - destruct (fold_weight_nonzero _ _ Zw) as (e & He & <-). destruct (B c f C F N) as (_ & _ & B3).
    destruct (B3 i line e Hi Zs E He) as (c' & f' & j & C' & F' & Hj & N' & S' & <-). apply (Vis c' f' j); assumption.
  - destruct (Nat.eqb_spec I (g_dof G c i)) as [->|]; [|lra]. apply (Vis c f i); assumption.
Qed.

Lemma pair_recorded I J : is_constrained G I = false -> In J (stencil G I) -> I <> J -> (I < g_n_dofs G)%nat ->
  on_boundary (g_n_dofs G) (boundary_visits G) I -> on_boundary (g_n_dofs G) (boundary_visits G) J ->
  In (I, J) (coupling_pairs (assembled_mesh G eps)).
Proof.
  intros X Hin N L BI BJ. cbn [coupling_pairs assembled_mesh]. apply in_map_iff.
  assert (Hp : exists col, (1 <= col)%nat /\ nth_error (stencil G I) col = Some J).
  { rewrite stencil_free in Hin |- * by exact X. destruct Hin as [E|Hin]; [congruence|]. apply In_nth_error in Hin. destruct Hin as (n & E).
    exists (Datatypes.S n). split; [lia|exact E]. }
  destruct Hp as (col & Hc & Hn). exists (I, col, J). split; [reflexivity|]. apply C56_exact_proof.
  repeat split; auto; try apply BI; try apply BJ.
Qed.

Lemma not_null_or (P : Prop) (x : R) : (x <> 0 -> P) -> x = 0 \/ P.
Proof. intros X. destruct (Req_dec x 0); auto. Qed.

Lemma boundary_dec J : on_boundary (g_n_dofs G) (boundary_visits G) J \/ ~ on_boundary (g_n_dofs G) (boundary_visits G) J.
Proof.
  destruct (boundary_indices_spec (g_n_dofs G) (boundary_visits G)) as [_ S]. rewrite <- (S J).
  destruct (in_dec Nat.eq_dec J (boundary_indices (g_n_dofs G) (boundary_visits G))); auto.
Qed.

Lemma skew_of_components I J : (forall d, (d < g_dim G)%nat -> cij_entry G d J I = - cij_entry G d I J) -> skew_at (assembled_mesh G eps) I J.
Proof.
  intros X. unfold skew_at, neg. cbn [c_ij assembled_mesh]. rewrite map_map. apply map_ext_in. intros d Hd. apply in_seq in Hd. apply X. lia.
Qed.

Lemma C106_mesh_proof : complete_ansatz G ->
  let M := assembled_mesh G eps in
  symmetric_pattern M /\ positive_masses M /\ symmetric_matrices M /\ mesh_dimension M (g_dim G) /\ pairs_listed M /\
  (forall i, active M i -> zero_row_sum M i) /\
  (forall i, active M i -> 0 < mass M i <= measure_of_omega M) /\
  (no_boundary G -> forall i j, active M i -> In j (columns M i) -> skew_at M i j).
Proof.
  intros (A & Po & Su & B & Rk & Inv) M. assert (Mf := ansatz_faces G A). assert (A' := A). destruct A' as (V & C & P & Ga & X).
  assert (Pos : forall i, active M i -> 0 < mass M i <= measure_of_omega M).
  { intros i Hi. cbn [mass measure_of_omega M assembled_mesh]. rewrite measure_integral by exact Rk. apply C102_positive_proof; try assumption. apply active_free, Hi. }
  split; [apply pattern_proof, Mf|]. split; [|split; [|split; [|split; [|split; [|split]]]]].
  - intros i Hi. split; [apply Pos, Hi|]. cbn [mass_inv mass M assembled_mesh]. unfold lumped_inverse. unfold Rdiv. ring.
  - intros i j Hi Hj. assert (Fi := active_free i Hi). assert (Fj := column_free i j Hi Hj). cbn [mass_ij mass_ij_inv incidence M assembled_mesh].
    split; [apply C102_symmetric_proof; assumption|]. destruct (g_discontinuous G) eqn:D.
    + split; [apply C104_inverse_symmetric_proof; intros; apply Inv; auto|apply C104_incidence_symmetric_proof, Mf; reflexivity].
    + unfold mass_inverse_entry, incidence_entry, serial, mass_inverse_tmp, incidence_tmp. rewrite D. split; reflexivity.
  - intros i j _ _. cbn [c_ij M assembled_mesh]. rewrite map_length, seq_length. reflexivity.
  - intros i j Hi Hj N. assert (Fi := active_free i Hi). assert (Fj := column_free i j Hi Hj).
    assert (Sk : ~ (on_boundary (g_n_dofs G) (boundary_visits G) i /\ on_boundary (g_n_dofs G) (boundary_visits G) j) -> skew_at M i j).
    { intros Nb. apply skew_of_components. intros d D. apply C103_skew_proof; try assumption. intros c f q Lc Lf Lq Nn.
      destruct (Req_dec (basis_face G i c f q) 0) as [->|Zi]; [ring|]. destruct (Req_dec (basis_face G j c f q) 0) as [->|Zj]; [ring|].
      exfalso. apply Nb. split; eapply trace_on_boundary; eassumption. }
    destruct (boundary_dec i) as [Bi|Bi]; [|left; apply Sk; tauto]. destruct (boundary_dec j) as [Bj|Bj]; [|left; apply Sk; tauto].
    right. split.
    + apply pair_recorded; try assumption; [apply free_not_constrained, Fi|apply Fi].
    + apply pair_recorded; try assumption; [apply free_not_constrained, Fj| |congruence|apply Fj].
      assert (Sp := pattern_proof Mf). destruct Hi as [Li _]. destruct (Sp i Li) as (nb & E & _ & Hs). fold M in E, Hs. rewrite E in Hj.
      destruct Hj as [?|Hj]; [congruence|]. apply (Hs j Hj).
  - intros i Hi x. assert (Fi := active_free i Hi). cbn [columns c_ij M assembled_mesh].
    destruct (Nat.lt_ge_cases x (g_dim G)) as [L|L].
    + rewrite (lsum_ext _ (fun j => cij_entry G x i j)).
      * rewrite row_sum; [apply C103_row_sum_proof; assumption|exact Fi|]. intros J LJ NJ.
        apply (C106_outside_proof 0 (fun _ => 0) x i J A Su (Rle_refl 0) Fi LJ NJ).
      * intros j _. rewrite nth_cij. destruct (Nat.ltb_spec x (g_dim G)); [reflexivity|lia].
    + apply lsum_zero. intros j _. rewrite nth_cij. destruct (Nat.ltb_spec x (g_dim G)); [lia|reflexivity].
  - exact Pos.
  - intros Nb i j Hi Hj. apply skew_of_components. intros d D.
    apply C103_skew_proof; try assumption; [apply active_free, Hi|apply (column_free i j); assumption|].
    intros c f q Lc Lf _ Nn. exfalso. apply (Nb c f Lc Lf Nn).
Qed.
End Mesh.
