(** * The block inverse, the incidence matrix, independence of the ranks *)
From Coq Require Import Reals List Bool Arith Lia Lra.
From Verif Require Import RVec Assembly SchemeSpec SchemeProofs AssemblySpec AssemblyProofs AssemblyFinal.
Import ListNotations.
Local Open Scope R_scope.

(** ** C104 *)
Lemma inverse_symmetric n A X : (forall i j, (i < n)%nat -> (j < n)%nat -> A i j = A j i) -> inverse_matrix n A X ->
  forall i j, (i < n)%nat -> (j < n)%nat -> X i j = X j i.
Proof.
  intros Sy Inv i j Hi Hj.
  (* X_ji = sum_k X_ki (A X)_kj = sum_l (sum_k X_ki A_kl) X_lj = X_ij *)
  assert (E1 : rsum n (fun k => X k i * rsum n (fun l => A k l * X l j)) = X j i).
  { rewrite (rsum_ext _ _ (fun k => (if Nat.eqb k j then 1 else 0) * X k i)).
    - rewrite (rs_delta _ (fun k => X k i)). destruct (Nat.ltb_spec j n); [reflexivity|lia].
    - intros k K. destruct (Inv k j K Hj) as [_ ->]. ring. }
  assert (E2 : rsum n (fun l => rsum n (fun k => X k i * A k l) * X l j) = X i j).
  { rewrite (rsum_ext _ _ (fun l => (if Nat.eqb l i then 1 else 0) * X l j)).
    - rewrite (rs_delta _ (fun l => X l j)). destruct (Nat.ltb_spec i n); [reflexivity|lia].
    - intros l L. f_equal. destruct (Inv l i L Hi) as [_ <-]. apply rsum_ext. intros k K. rewrite (Sy k l K L). ring. }
  rewrite <- E1, <- E2.
  transitivity (rsum n (fun l => rsum n (fun k => X k i * A k l * X l j))); [apply rsum_ext; intros; symmetry; apply rs_scal_r|].
  rewrite rs_swap. apply rsum_ext. intros k _. rewrite <- rsum_scal. apply rsum_ext. intros. ring.
Qed.

Lemma cell_mass_symmetric G c i j : cell_mass G c i j = cell_mass G c j i.
Proof. apply rsum_ext. intros. ring. Qed.

(** A row of a block diagonal matrix. *)
Lemma block_row G (A : nat -> nat -> nat -> R) c i K : cellwise G -> (c < g_n_cells G)%nat -> (i < g_n_local G)%nat ->
  rsum (g_n_cells G) (fun c' => distribute_square G c' (A c') (g_dof G c i) K) =
  rsum (g_n_local G) (fun k => weight G K (g_dof G c k) * A c i k).
Proof.
  intros (_ & Nc & Inj & _) Lc Li. assert (X : is_constrained G (g_dof G c i) = false) by (unfold is_constrained; rewrite Nc; reflexivity).
  rewrite (rs_single _ _ c Lc).
  - rewrite square_free by exact X. unfold distribute. rewrite (rs_single _ _ i Li).
    + apply rsum_ext. intros k _. rewrite (weight_free G _ _ (Nc _)), Nat.eqb_refl. ring.
    + intros j Lj N. apply rs_zero. intros k _. rewrite (weight_free G _ _ (Nc _)).
      destruct (Nat.eqb_spec (g_dof G c i) (g_dof G c j)) as [E|]; [|ring]. destruct (Inj c i c j Lc Li Lc Lj E). congruence.
  - intros c' Lc' N. rewrite square_free by exact X. apply distribute_row_zero. intros j Lj. rewrite (weight_free G _ _ (Nc _)).
    destruct (Nat.eqb_spec (g_dof G c i) (g_dof G c' j)) as [E|]; [|ring]. destruct (Inj c i c' j Lc Li Lc' Lj E). congruence.
Qed.

Lemma mass_inverse_row G c i K : cellwise G -> (c < g_n_cells G)%nat -> (i < g_n_local G)%nat ->
  mass_inverse_entry G (g_dof G c i) K = rsum (g_n_local G) (fun k => weight G K (g_dof G c k) * g_invert G (cell_mass G c) i k).
Proof.
  intros W Lc Li. unfold mass_inverse_entry, serial, mass_inverse_tmp, over_cells. assert (D := W). destruct D as (-> & _).
  apply (block_row G (fun c => g_invert G (cell_mass G c))); assumption.
Qed.
Lemma mass_row G c i K : cellwise G -> (c < g_n_cells G)%nat -> (i < g_n_local G)%nat ->
  mass_entry G (g_dof G c i) K = rsum (g_n_local G) (fun k => weight G K (g_dof G c k) * cell_mass G c i k).
Proof. intros W Lc Li. apply (block_row G (cell_mass G)); assumption. Qed.

Lemma block_value G c i c' j (X : nat -> nat -> nat -> R) : cellwise G -> (c < g_n_cells G)%nat -> (i < g_n_local G)%nat ->
  (c' < g_n_cells G)%nat -> (j < g_n_local G)%nat ->
  rsum (g_n_local G) (fun k => weight G (g_dof G c' j) (g_dof G c k) * X c i k) = if Nat.eqb c c' then X c i j else 0.
Proof.
  intros (_ & Nc & Inj & _) Lc Li Lc' Lj. destruct (Nat.eqb_spec c c') as [<-|N].
  - rewrite (rs_single _ _ j Lj).
    + rewrite (weight_free G _ _ (Nc _)), Nat.eqb_refl. ring.
    + intros k Lk N. rewrite (weight_free G _ _ (Nc _)). destruct (Nat.eqb_spec (g_dof G c j) (g_dof G c k)) as [E|]; [|ring].
      destruct (Inj c j c k Lc Lj Lc Lk E). congruence.
  - apply rs_zero. intros k Lk. rewrite (weight_free G _ _ (Nc _)). destruct (Nat.eqb_spec (g_dof G c' j) (g_dof G c k)) as [E|]; [|ring].
    destruct (Inj c' j c k Lc' Lj Lc Lk E). congruence.
Qed.

Lemma C104_inverse_proof G c i c' j : valid_indices G -> cellwise G ->
  (forall c, (c < g_n_cells G)%nat -> inverse_matrix (g_n_local G) (cell_mass G c) (g_invert G (cell_mass G c))) ->
  (c < g_n_cells G)%nat -> (i < g_n_local G)%nat -> (c' < g_n_cells G)%nat -> (j < g_n_local G)%nat ->
  rsum (g_n_dofs G) (fun K => mass_inverse_entry G (g_dof G c i) K * mass_entry G K (g_dof G c' j)) =
  if Nat.eqb (g_dof G c i) (g_dof G c' j) then 1 else 0.
Proof.
  intros V W Inv Lc Li Lc' Lj.
  transitivity (rsum (g_n_local G) (fun k => g_invert G (cell_mass G c) i k * mass_entry G (g_dof G c k) (g_dof G c' j))).
  - transitivity (rsum (g_n_dofs G) (fun K => rsum (g_n_local G) (fun k => (if Nat.eqb K (g_dof G c k) then 1 else 0) * (g_invert G (cell_mass G c) i k * mass_entry G K (g_dof G c' j))))).
    + apply rsum_ext. intros K _. rewrite mass_inverse_row by assumption. rewrite <- rs_scal_r. apply rsum_ext. intros k Lk.
      destruct W as (_ & Nc & _). rewrite (weight_free G _ _ (Nc _)). ring.
    + rewrite rs_swap. apply rsum_ext. intros k Lk.
      rewrite (rs_delta _ (fun K => g_invert G (cell_mass G c) i k * mass_entry G K (g_dof G c' j))).
      assert (B := V c k Lc Lk). destruct (Nat.ltb_spec (g_dof G c k) (g_n_dofs G)); [reflexivity|lia].
  - transitivity (if Nat.eqb c c' then rsum (g_n_local G) (fun k => g_invert G (cell_mass G c) i k * cell_mass G c k j) else 0).
    + destruct (Nat.eqb_spec c c') as [<-|N].
      * apply rsum_ext. intros k Lk. rewrite mass_row by assumption. rewrite (block_value G c k c j (cell_mass G)) by assumption. rewrite Nat.eqb_refl. reflexivity.
      * apply rs_zero. intros k Lk. rewrite mass_row by assumption. rewrite (block_value G c k c' j (cell_mass G)) by assumption.
        destruct (Nat.eqb_spec c c'); [congruence|ring].
    + destruct W as (_ & _ & Inj & _). destruct (Nat.eqb_spec c c') as [<-|N].
      * destruct (Inv c Lc i j Li Lj) as [-> _]. destruct (Nat.eqb_spec i j) as [<-|N]; [rewrite Nat.eqb_refl; reflexivity|].
        destruct (Nat.eqb_spec (g_dof G c i) (g_dof G c j)) as [E|]; [|reflexivity]. destruct (Inj c i c j Lc Li Lc Lj E). congruence.
      * destruct (Nat.eqb_spec (g_dof G c i) (g_dof G c' j)) as [E|]; [|reflexivity]. destruct (Inj c i c' j Lc Li Lc' Lj E). congruence.
Qed.

Lemma C104_inverse_symmetric_proof G I J :
  (forall c, (c < g_n_cells G)%nat -> inverse_matrix (g_n_local G) (cell_mass G c) (g_invert G (cell_mass G c))) ->
  mass_inverse_entry G I J = mass_inverse_entry G J I.
Proof.
  intros Inv. unfold mass_inverse_entry, serial, mass_inverse_tmp, over_cells. destruct (g_discontinuous G); [|reflexivity].
  apply rsum_ext. intros c L. unfold distribute_square. f_equal.
  - apply distribute_swap. intros i j Hi Hj. apply (inverse_symmetric (g_n_local G) (cell_mass G c)); auto. intros. apply cell_mass_symmetric.
  - rewrite (Nat.eqb_sym J I). destruct (Nat.eqb_spec I J); [subst; reflexivity|reflexivity].
Qed.

Lemma incidence_weight_symmetric G m i j : incidence_weight G m i j = incidence_weight G m j i.
Proof. unfold incidence_weight. rewrite (Rplus_comm (m i)). reflexivity. Qed.

Lemma C104_incidence_symmetric_proof G eps m I J : matching_faces G -> incidence_entry G eps m I J = incidence_entry G eps m J I.
Proof.
  intros Mf. unfold incidence_entry, serial, incidence_tmp, over_cells. destruct (g_discontinuous G); [|reflexivity].
  rewrite (face_swap (g_neighbor G) _ _ (fun c f c' f' => distribute G (interface_incidence G eps m c f c' f') (g_dof G c) (g_dof G c') I J)).
  - apply rsum_ext. intros c C. apply rsum_ext. intros f F. destruct (g_neighbor G c f) as [[c' f']|]; [|reflexivity].
    apply distribute_swap. intros i j _ _. apply rsum_ext. intros q _. rewrite (Rmult_comm (g_node_value G c' f' i q)).
    rewrite incidence_weight_symmetric. reflexivity.
  - intros c f c' f' C F N. destruct (Mf c f c' f' C F N) as (X1 & X2 & X3 & _). auto.
Qed.

Lemma lsum_prod {A B} (F : A * B -> R) (l : list A) (m : list B) : lsum F (list_prod l m) = lsum (fun a => lsum (fun b => F (a, b)) m) l.
Proof.
  induction l as [|a l IH]; [reflexivity|]. cbn [list_prod lsum].
  assert (Ap : forall (u v : list (A * B)), lsum F (u ++ v) = lsum F u + lsum F v).
  { intros u v. induction u as [|x u IHu]; cbn; [ring|]. rewrite IHu. ring. }
  rewrite Ap, IH, lsum_map. reflexivity.
Qed.
Lemma filter_count {A} (p : A -> bool) l : INR (length (filter p l)) = lsum (fun x => if p x then 1 else 0) l.
Proof. induction l as [|a l IH]; [reflexivity|]. cbn [filter lsum]. destruct (p a); [cbn [length]; rewrite S_INR, IH; ring|rewrite IH; ring]. Qed.

Lemma C104_encounters_proof G eps m I J : cellwise G ->
  incidence_entry G eps m I J = INR (encounters G eps I J) * incidence_weight G m I J.
Proof.
  intros (D & Nc & _). unfold incidence_entry, serial, incidence_tmp, over_cells, encounters. rewrite D.
  rewrite filter_count. rewrite lsum_prod, lsum_prod, lsum_prod, lsum_prod, <- rsum_lsum, <- rs_scal_r.
  apply rsum_ext. intros c C. rewrite <- rsum_lsum, <- rs_scal_r. apply rsum_ext. intros f F.
  destruct (g_neighbor G c f) as [[c' f']|].
  - transitivity (rsum (g_n_nodes G) (fun q => rsum (g_n_local G) (fun i => rsum (g_n_local G) (fun j =>
      (if Nat.eqb (g_dof G c i) I && Nat.eqb (g_dof G c' j) J &&
        (if Rlt_dec (100 * eps) (Rabs (g_node_value G c f i q * g_node_value G c' f' j q)) then true else false) then 1 else 0) * incidence_weight G m I J)))).
    + unfold interface_incidence. rewrite distribute_rsum. apply rsum_ext. intros q _. unfold distribute. apply rsum_ext. intros i _. apply rsum_ext. intros j _.
      rewrite !(weight_free G _ _ (Nc _)), (Nat.eqb_sym I), (Nat.eqb_sym J).
      destruct (Nat.eqb_spec (g_dof G c i) I) as [->|], (Nat.eqb_spec (g_dof G c' j) J) as [->|]; cbn [andb]; try ring.
      destruct Rlt_dec; ring.
    + rewrite <- rsum_lsum, <- rs_scal_r. apply rsum_ext. intros q _. rewrite <- rsum_lsum, <- rs_scal_r. apply rsum_ext. intros i _.
      rewrite <- rsum_lsum, <- rs_scal_r. reflexivity.
  - rewrite lsum_zero; [ring|]. intros. apply lsum_zero. intros. apply lsum_zero. reflexivity.
Qed.

(** ** C105 *)
Lemma by_rank G (F : nat -> nat -> R) : (forall c, (c < g_n_cells G)%nat -> (g_rank G c < g_n_ranks G)%nat) ->
  rsum (g_n_ranks G) (fun p => over_cells G (fun c => Nat.eqb (g_rank G c) p) (fun c => F p c)) = rsum (g_n_cells G) (fun c => F (g_rank G c) c).
Proof.
  intros L. unfold over_cells. rewrite rs_swap. apply rsum_ext. intros c C.
  rewrite (rsum_ext _ _ (fun p => (if Nat.eqb p (g_rank G c) then 1 else 0) * F p c)).
  - rewrite (rs_delta _ (fun p => F p c)). specialize (L c C). destruct (Nat.ltb_spec (g_rank G c) (g_n_ranks G)); [reflexivity|lia].
  - intros p _. rewrite (Nat.eqb_sym p). destruct (Nat.eqb (g_rank G c) p); ring.
Qed.

(** A loop over cells whose contribution depends on the visible neighbors only. *)
Definition cell_of_cij (G : geometry) (d : nat) (vis : nat -> bool) (c I J : nat) : R :=
  distribute_square G c (cell_cij G vis c d) I J
    + (if g_discontinuous G then
         rsum (g_n_faces G) (fun f =>
           match g_neighbor G c f with
           | Some (c', f') =>
               if vis c' then distribute G (interface_cij G c f c' f' d) (g_dof G c) (g_dof G c') I J else 0
           | None => 0
           end)
       else 0).
Definition cell_of_incidence (G : geometry) (eps : R) (m : nat -> R) (vis : nat -> bool) (c I J : nat) : R :=
  rsum (g_n_faces G) (fun f =>
        match g_neighbor G c f with
        | Some (c', f') =>
            if vis c' then distribute G (interface_incidence G eps m c f c' f') (g_dof G c) (g_dof G c') I J else 0
        | None => 0
        end).

Lemma visible_cij G d vis c I J :
  (forall f c' f', (f < g_n_faces G)%nat -> g_neighbor G c f = Some (c', f') -> vis c' = true) ->
  cell_of_cij G d vis c I J = cell_of_cij G d (fun _ => true) c I J.
Proof.
  intros X. unfold cell_of_cij, distribute_square, cell_cij. destruct (g_discontinuous G); [|reflexivity].
  f_equal; [f_equal|].
  - apply distribute_ext. intros i j _ _. f_equal. apply rsum_ext. intros f F. unfold has_neighbor.
    destruct (g_neighbor G c f) as [[c' f']|] eqn:N; [|reflexivity]. rewrite (X f c' f' F N). reflexivity.
  - apply rsum_ext. intros f F. destruct (g_neighbor G c f) as [[c' f']|] eqn:N; [|reflexivity]. rewrite (X f c' f' F N). reflexivity.
Qed.
Lemma visible_incidence G eps m vis c I J :
  (forall f c' f', (f < g_n_faces G)%nat -> g_neighbor G c f = Some (c', f') -> vis c' = true) ->
  cell_of_incidence G eps m vis c I J = cell_of_incidence G eps m (fun _ => true) c I J.
Proof.
  intros X. apply rsum_ext. intros f F. destruct (g_neighbor G c f) as [[c' f']|] eqn:N; [|reflexivity]. rewrite (X f c' f' F N). reflexivity.
Qed.

Lemma C105_with_trilinos_proof G eps m d I J : ghost_layer G ->
  trilinos G (fun cells _ => mass_tmp G cells) I J = mass_entry G I J /\
  trilinos G (fun cells vis => cij_tmp G cells vis d) I J = cij_entry G d I J /\
  trilinos G (fun cells _ => mass_inverse_tmp G cells) I J = mass_inverse_entry G I J /\
  trilinos G (incidence_tmp G eps m) I J = incidence_entry G eps m I J.
Proof.
  intros (R1 & R2 & _). split; [|split; [|split]].
  - apply (by_rank G (fun _ c => distribute_square G c (cell_mass G c) I J) R1).
  - etransitivity; [apply (by_rank G (fun p c => cell_of_cij G d (g_visible G p) c I J) R1)|].
    apply rsum_ext. intros c C. apply visible_cij. intros. eapply R2; eassumption.
  - unfold trilinos, mass_inverse_entry, serial, mass_inverse_tmp. destruct (g_discontinuous G); [|apply rsum_0].
    apply (by_rank G (fun _ c => distribute_square G c (g_invert G (cell_mass G c)) I J) R1).
  - unfold trilinos, incidence_entry, serial, incidence_tmp. destruct (g_discontinuous G); [|apply rsum_0].
    etransitivity; [apply (by_rank G (fun p c => cell_of_incidence G eps m (g_visible G p) c I J) R1)|].
    apply rsum_ext. intros c C. apply visible_incidence. intros. eapply R2; eassumption.
Qed.

(** Cells that do not contribute to a row. *)
Lemma square_row_zero G c A I J : is_constrained G I = false -> (forall i, (i < g_n_local G)%nat -> weight G I (g_dof G c i) = 0) ->
  distribute_square G c A I J = 0.
Proof. intros X Z. rewrite square_free by exact X. apply distribute_row_zero, Z. Qed.
Lemma cij_row_zero G d vis c I J : is_constrained G I = false -> (forall i, (i < g_n_local G)%nat -> weight G I (g_dof G c i) = 0) ->
  cell_of_cij G d vis c I J = 0.
Proof.
  intros X Z. unfold cell_of_cij. rewrite square_row_zero by assumption. rewrite Rplus_0_l. destruct (g_discontinuous G); [|reflexivity].
  apply rs_zero. intros f _. destruct (g_neighbor G c f) as [[c' f']|]; [|reflexivity]. destruct (vis c'); [|reflexivity].
  apply distribute_row_zero, Z.
Qed.
Lemma incidence_row_zero G eps m vis c I J : (forall i, (i < g_n_local G)%nat -> weight G I (g_dof G c i) = 0) ->
  cell_of_incidence G eps m vis c I J = 0.
Proof.
  intros Z. apply rs_zero. intros f _. destruct (g_neighbor G c f) as [[c' f']|]; [|reflexivity]. destruct (vis c'); [|reflexivity].
  apply distribute_row_zero, Z.
Qed.

Lemma dec_contributes G I c : (forall i, (i < g_n_local G)%nat -> weight G I (g_dof G c i) = 0) \/
  exists i, (i < g_n_local G)%nat /\ weight G I (g_dof G c i) <> 0.
Proof.
  generalize (g_n_local G). intros n. induction n as [|n IH]; [left; intros; lia|]. destruct IH as [IH|(i & L & N)].
  - destruct (Req_dec (weight G I (g_dof G c n)) 0) as [Z|Z].
    + left. intros i L. destruct (Nat.eq_dec i n) as [->|]; [exact Z|apply IH; lia].
    + right. exists n. split; [lia|exact Z].
  - right. exists i. split; [lia|exact N].
Qed.

(** Both subsets of the cells that have every cell of the row give its entries. *)
Lemma enough_cells G eps m d I J cells vis : free G I ->
  (forall c i, (c < g_n_cells G)%nat -> (i < g_n_local G)%nat -> weight G I (g_dof G c i) <> 0 ->
     cells c = true /\ forall f c' f', (f < g_n_faces G)%nat -> g_neighbor G c f = Some (c', f') -> vis c' = true) ->
  mass_tmp G cells I J = mass_entry G I J /\ cij_tmp G cells vis d I J = cij_entry G d I J /\
  mass_inverse_tmp G cells I J = mass_inverse_entry G I J /\ incidence_tmp G eps m cells vis I J = incidence_entry G eps m I J.
Proof.
  intros F X. apply free_not_constrained in F.
  assert (K : forall (P Q : nat -> R), (forall c, (c < g_n_cells G)%nat -> (forall i, (i < g_n_local G)%nat -> weight G I (g_dof G c i) = 0) -> P c = 0 /\ Q c = 0) ->
     (forall c, (c < g_n_cells G)%nat -> (forall f c' f', (f < g_n_faces G)%nat -> g_neighbor G c f = Some (c', f') -> vis c' = true) -> P c = Q c) ->
     over_cells G cells P = over_cells G (fun _ => true) Q).
  { intros P Q Z E. apply rsum_ext. intros c C. destruct (dec_contributes G I c) as [N|(i & Li & N)].
    - destruct (Z c C N) as [-> ->]. destruct (cells c); reflexivity.
    - destruct (X c i C Li N) as [-> V]. apply E; assumption. }
  split; [|split; [|split]].
  - apply K; [|reflexivity]. intros c _ Z. rewrite square_row_zero by assumption. auto.
  - apply (K (fun c => cell_of_cij G d vis c I J) (fun c => cell_of_cij G d (fun _ => true) c I J)).
    + intros c _ Z. rewrite !cij_row_zero by assumption. auto.
    + intros c _ V. apply visible_cij, V.
  - unfold mass_inverse_entry, serial, mass_inverse_tmp. destruct (g_discontinuous G); [|reflexivity].
    apply K; [|reflexivity]. intros c _ Z. rewrite square_row_zero by assumption. auto.
  - unfold incidence_entry, serial, incidence_tmp. destruct (g_discontinuous G); [|reflexivity].
    apply (K (fun c => cell_of_incidence G eps m vis c I J) (fun c => cell_of_incidence G eps m (fun _ => true) c I J)).
    + intros c _ Z. rewrite !incidence_row_zero by assumption. auto.
    + intros c _ V. apply visible_incidence, V.
Qed.

Lemma C105_without_trilinos_proof G eps m d I J : ghost_layer G -> free G I ->
  without_trilinos G (fun cells _ => mass_tmp G cells) I J = mass_entry G I J /\
  without_trilinos G (fun cells vis => cij_tmp G cells vis d) I J = cij_entry G d I J /\
  without_trilinos G (fun cells _ => mass_inverse_tmp G cells) I J = mass_inverse_entry G I J /\
  without_trilinos G (incidence_tmp G eps m) I J = incidence_entry G eps m I J.
Proof. intros (_ & _ & R3) F. apply enough_cells; [exact F|]. intros c i C Li N. apply (R3 c i I C Li N). Qed.

(** Matrices that are not compressed: the owner of a row has all contributions. *)
Lemma C105_uncompressed_proof G eps m I J : ghost_layer G -> cellwise G -> (I < g_n_dofs G)%nat ->
  let p := g_row_rank G I in
  mass_inverse_tmp G (fun c => Nat.eqb (g_rank G c) p) I J = mass_inverse_entry G I J /\
  incidence_tmp G eps m (fun c => Nat.eqb (g_rank G c) p) (g_visible G p) I J = incidence_entry G eps m I J.
Proof.
  intros (_ & R2 & _) (_ & Nc & _ & Own) L p.
  assert (F : free G I) by (split; [exact L|apply Nc]).
  destruct (enough_cells G eps m 0 I J (fun c => Nat.eqb (g_rank G c) p) (g_visible G p) F) as (_ & _ & A & B); [|split; assumption].
  intros c i C Li N. rewrite (weight_free G _ _ (Nc _)) in N. destruct (Nat.eqb_spec I (g_dof G c i)) as [E|]; [|lra].
  assert (P : p = g_rank G c) by (unfold p; rewrite E; apply Own; assumption). rewrite P. split; [apply Nat.eqb_refl|].
  intros f c' f' Lf Nb. eapply R2; eassumption.
Qed.

Lemma C105_measure_proof G : ghost_layer G -> measure G = integral G (fun _ _ => 1).
Proof. intros (R1 & _). apply measure_integral, R1. Qed.

Lemma C105_measure_without_proof G :
  measure_without_trilinos G = integral G (fun c _ => INR (length (filter (fun p => g_visible G p c) (seq 0 (g_n_ranks G))))).
Proof.
  unfold measure_without_trilinos, measure_over, over_cells, integral. rewrite rs_swap. apply rsum_ext. intros c _.
  rewrite filter_count, <- rsum_lsum. unfold cell_measure.
  rewrite (rsum_ext _ _ (fun p => (if g_visible G p c then 1 else 0) * rsum (g_n_points G) (fun q => g_JxW G c q))) by (intros p _; destruct (g_visible G p c); ring).
  rewrite rs_scal_r, <- rsum_scal. reflexivity.
Qed.
