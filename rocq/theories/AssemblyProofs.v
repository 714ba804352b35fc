(** * Lemmas about the assembled matrices *)
From Coq Require Import Reals List Bool Arith Lia Lra.
From Verif Require Import RVec Assembly SchemeSpec SchemeProofs AssemblySpec.
Import ListNotations.
Local Open Scope R_scope.

(** ** Sums *)
Lemma rsum_lsum n f : rsum n f = lsum f (seq 0 n).
Proof.
  induction n as [|n IH]; [reflexivity|]. cbn [rsum]. rewrite IH, seq_S. cbn [Nat.add].
  generalize (seq 0 n). intros l. induction l as [|a l IHl]; cbn; [ring|]. rewrite <- IHl. ring.
Qed.
Lemma rs_swap n m (f : nat -> nat -> R) :
  rsum n (fun i => rsum m (fun j => f i j)) = rsum m (fun j => rsum n (fun i => f i j)).
Proof. induction n as [|n IH]; simpl; [symmetry; apply rsum_0|]. rewrite IH, rsum_plus. reflexivity. Qed.
Lemma rs_zero n f : (forall k, (k < n)%nat -> f k = 0) -> rsum n f = 0.
Proof. intros X. rewrite (rsum_ext n f (fun _ => 0) X). apply rsum_0. Qed.
Lemma rs_delta n f k : rsum n (fun j => (if Nat.eqb j k then 1 else 0) * f j) = if Nat.ltb k n then f k else 0.
Proof.
  induction n as [|n IH]; [reflexivity|]. cbn [rsum]. rewrite IH.
  destruct (Nat.ltb_spec k n), (Nat.ltb_spec k (Datatypes.S n)), (Nat.eqb_spec n k); try lia; subst; ring.
Qed.
Lemma rs_minus n f g : rsum n (fun k => f k - g k) = rsum n f - rsum n g.
Proof. induction n; simpl; [ring|]. rewrite IHn. ring. Qed.
Lemma rs_scal_r n c f : rsum n (fun k => f k * c) = rsum n f * c.
Proof. induction n; simpl; [ring|]. rewrite IHn. ring. Qed.
Lemma rs_le n f g : (forall k, (k < n)%nat -> f k <= g k) -> rsum n f <= rsum n g.
Proof. intros X. induction n; simpl; [lra|]. assert (rsum n f <= rsum n g) by (apply IHn; auto). assert (f n <= g n) by auto. lra. Qed.
Lemma rs_single n f k : (k < n)%nat -> (forall j, (j < n)%nat -> j <> k -> f j = 0) -> rsum n f = f k.
Proof.
  intros K X. rewrite (rsum_ext n f (fun j => (if Nat.eqb j k then 1 else 0) * f j)).
  - rewrite rs_delta. destruct (Nat.ltb_spec k n); [reflexivity|lia].
  - intros j J. destruct (Nat.eqb_spec j k); [ring|]. rewrite X by auto. ring.
Qed.
Lemma rs_nonzero n f : rsum n f <> 0 -> exists k, (k < n)%nat /\ f k <> 0.
Proof.
  induction n as [|n IH]; cbn; [lra|]. intros X. destruct (Req_dec (f n) 0) as [Z|Z].
  - destruct IH as (k & K & Q); [intros E; apply X; lra|]. exists k. split; [lia|exact Q].
  - exists n. split; [lia|exact Z].
Qed.

(** Sums over the faces with neighbors, seen from the other side. *)
Lemma pair_dec (x y : nat * nat) : {x = y} + {x <> y}.
Proof. decide equality; apply Nat.eq_dec. Qed.
Lemma face_swap (nb : nat -> nat -> option (nat * nat)) nc nf (H : nat -> nat -> nat -> nat -> R) :
  (forall c f c' f', (c < nc)%nat -> (f < nf)%nat -> nb c f = Some (c', f') ->
     (c' < nc)%nat /\ (f' < nf)%nat /\ nb c' f' = Some (c, f)) ->
  rsum nc (fun c => rsum nf (fun f => match nb c f with Some (c', f') => H c f c' f' | None => 0 end)) =
  rsum nc (fun c => rsum nf (fun f => match nb c f with Some (c', f') => H c' f' c f | None => 0 end)).
Proof.
  intros Inv.
  set (ind := fun c f c' f' : nat => match nb c f with Some p => if pair_dec p (c', f') then 1 else 0 | None => 0 end).
  assert (E : forall (K : nat -> nat -> nat -> nat -> R) c f, (c < nc)%nat -> (f < nf)%nat ->
            match nb c f with Some (c', f') => K c f c' f' | None => 0 end =
            rsum nc (fun c' => rsum nf (fun f' => ind c f c' f' * K c f c' f'))).
  { intros K c f C F. unfold ind. destruct (nb c f) as [[c' f']|] eqn:N.
    - destruct (Inv c f c' f' C F N) as (C' & F' & _). symmetry.
      rewrite (rs_single nc _ c' C').
      + rewrite (rs_single nf _ f' F').
        * destruct (pair_dec (c', f') (c', f')); [ring|congruence].
        * intros j _ J. destruct (pair_dec (c', f') (c', j)) as [e|e]; [injection e; congruence|ring].
      + intros j _ J. apply rs_zero. intros k _. destruct (pair_dec (c', f') (j, k)) as [e|e]; [injection e; congruence|ring].
    - symmetry. apply rs_zero. intros. apply rs_zero. intros. ring. }
  assert (Sy : forall c f c' f', (c < nc)%nat -> (f < nf)%nat -> (c' < nc)%nat -> (f' < nf)%nat -> ind c f c' f' = ind c' f' c f).
  { assert (Half : forall c f c' f', (c < nc)%nat -> (f < nf)%nat -> (c' < nc)%nat -> (f' < nf)%nat -> ind c f c' f' = 1 -> ind c' f' c f = 1).
    { intros c f c' f' C F C' F'. unfold ind. destruct (nb c f) as [p|] eqn:N; [|lra]. destruct (pair_dec p (c', f')) as [->|]; [|lra].
      intros _. destruct (Inv _ _ _ _ C F N) as (_ & _ & ->). destruct (pair_dec (c, f) (c, f)); congruence. }
    assert (Two : forall c f c' f', ind c f c' f' = 1 \/ ind c f c' f' = 0).
    { intros. unfold ind. destruct (nb c f); [destruct pair_dec|]; auto. }
    intros c f c' f' C F C' F'. destruct (Two c f c' f') as [A|A], (Two c' f' c f) as [B|B]; try congruence.
    - rewrite (Half _ _ _ _ C F C' F' A) in B. lra.
    - rewrite (Half _ _ _ _ C' F' C F B) in A. lra. }
  transitivity (rsum nc (fun c => rsum nf (fun f => rsum nc (fun c' => rsum nf (fun f' => ind c f c' f' * H c f c' f'))))).
  { apply rsum_ext. intros c C. apply rsum_ext. intros f F. apply (E H); assumption. }
  transitivity (rsum nc (fun c => rsum nf (fun f => rsum nc (fun c' => rsum nf (fun f' => ind c f c' f' * H c' f' c f))))).
  2:{ apply rsum_ext. intros c C. apply rsum_ext. intros f F. symmetry. apply (E (fun c f c' f' => H c' f' c f)); assumption. }
  
  transitivity (rsum nc (fun c' => rsum nf (fun f' => rsum nc (fun c => rsum nf (fun f => ind c f c' f' * H c f c' f'))))).
  - transitivity (rsum nc (fun c => rsum nc (fun c' => rsum nf (fun f => rsum nf (fun f' => ind c f c' f' * H c f c' f'))))).
    { apply rsum_ext. intros c _. apply rs_swap. }
    rewrite rs_swap. apply rsum_ext. intros c' _.
    transitivity (rsum nc (fun c => rsum nf (fun f' => rsum nf (fun f => ind c f c' f' * H c f c' f')))).
    { apply rsum_ext. intros c _. apply rs_swap. }
    apply rs_swap.
  - apply rsum_ext. intros c' C'. apply rsum_ext. intros f' F'. apply rsum_ext. intros c C. apply rsum_ext. intros f F.
    rewrite (Sy c f c' f') by assumption. ring.
Qed.

Section Assembly.
Variable G : geometry.
Notation nl := (g_n_local G).

(** ** Weights *)
Lemma weight_free J g : g_constraint G g = None -> weight G J g = if Nat.eqb J g then 1 else 0.
Proof. unfold weight. intros ->. reflexivity. Qed.
Lemma weight_sum g : closed_constraints G -> (g < g_n_dofs G)%nat -> rsum (g_n_dofs G) (fun J => weight G J g) = 1.
Proof.
  intros C L. unfold weight. destruct (g_constraint G g) as [line|] eqn:E.
  - destruct (C g line L E) as [S F]. rewrite <- S. clear E S. induction line as [|[a w] line IH]; cbn [fold_right lsum fst snd].
    + apply rsum_0.
    + rewrite rsum_plus, IH by (intros e I; apply F; right; exact I). f_equal.
      transitivity (rsum (g_n_dofs G) (fun J => (if Nat.eqb J a then 1 else 0) * w)).
      { apply rsum_ext. intros k _. rewrite (Nat.eqb_sym a k). destruct (Nat.eqb k a); ring. }
      rewrite (rs_delta _ (fun _ => w)). destruct (F (a, w) (or_introl eq_refl)) as [B _]. cbn in B.
      destruct (Nat.ltb_spec a (g_n_dofs G)); [reflexivity|lia].
  - transitivity (rsum (g_n_dofs G) (fun J => (if Nat.eqb J g then 1 else 0) * 1)); [apply rsum_ext; intros; ring|].
    rewrite (rs_delta _ (fun _ => 1)). destruct (Nat.ltb_spec g (g_n_dofs G)); [reflexivity|lia].
Qed.
Lemma fold_weight_nonzero (I : nat) (line : list (nat * R)) :
  fold_right (fun e s => (if Nat.eqb (fst e) I then snd e else 0) + s) 0 line <> 0 -> exists e, In e line /\ fst e = I.
Proof.
  induction line as [|a line IH]; cbn; [lra|]. destruct (Nat.eqb_spec (fst a) I) as [E|E].
  - intros _. exists a. auto.
  - rewrite Rplus_0_l. intros X. destruct (IH X) as (e & A & B). exists e. auto.
Qed.
Lemma weight_constrained I g : closed_constraints G -> (g < g_n_dofs G)%nat -> is_constrained G I = true -> weight G I g = 0.
Proof.
  intros C L X. destruct (Req_dec (weight G I g) 0) as [Z|Z]; [exact Z|]. exfalso.
  unfold weight in Z. unfold is_constrained in X. destruct (g_constraint G g) as [line|] eqn:E.
  - destruct (fold_weight_nonzero _ _ Z) as (e & A & <-). destruct (C g line L E) as [_ F]. destruct (F e A) as [_ F']. rewrite F' in X. discriminate.
  - destruct (Nat.eqb_spec I g); [|lra]. subst. rewrite E in X. discriminate.
Qed.
Lemma weight_reaches I g : weight G I g <> 0 -> reaches G I g = true.
Proof.
  unfold weight, reaches. destruct (g_constraint G g) as [line|].
  - intros X. destruct (fold_weight_nonzero _ _ X) as (e & A & B). apply existsb_exists. exists e. rewrite B, Nat.eqb_refl. auto.
  - destruct (Nat.eqb I g); [auto|lra].
Qed.
Lemma free_not_constrained I : free G I -> is_constrained G I = false.
Proof. unfold free, is_constrained. intros [_ ->]. reflexivity. Qed.
Lemma not_constrained_free I : (I < g_n_dofs G)%nat -> is_constrained G I = false -> free G I.
Proof. unfold free, is_constrained. destruct (g_constraint G I); [discriminate|auto]. Qed.

(** ** Distribution *)
Lemma distribute_ext A B rows cols I J :
  (forall i j, (i < nl)%nat -> (j < nl)%nat -> A i j = B i j) -> distribute G A rows cols I J = distribute G B rows cols I J.
Proof. intros X. apply rsum_ext. intros i Hi. apply rsum_ext. intros j Hj. rewrite X by assumption. reflexivity. Qed.
Lemma distribute_plus A B rows cols I J :
  distribute G (fun i j => A i j + B i j) rows cols I J = distribute G A rows cols I J + distribute G B rows cols I J.
Proof.
  unfold distribute. rewrite <- rsum_plus. apply rsum_ext. intros i _. rewrite <- rsum_plus. apply rsum_ext. intros j _. ring.
Qed.
Lemma distribute_minus A B rows cols I J :
  distribute G (fun i j => A i j - B i j) rows cols I J = distribute G A rows cols I J - distribute G B rows cols I J.
Proof.
  unfold distribute. rewrite <- rs_minus. apply rsum_ext. intros i _. rewrite <- rs_minus. apply rsum_ext. intros j _. ring.
Qed.
Lemma distribute_rsum n (A : nat -> nat -> nat -> R) rows cols I J :
  distribute G (fun i j => rsum n (fun f => A f i j)) rows cols I J = rsum n (fun f => distribute G (A f) rows cols I J).
Proof.
  unfold distribute. rewrite (rs_swap n). apply rsum_ext. intros i _. rewrite (rs_swap n). apply rsum_ext. intros j _.
  rewrite rsum_scal. reflexivity.
Qed.
Lemma distribute_zero rows cols I J : distribute G (fun _ _ => 0) rows cols I J = 0.
Proof. apply rs_zero. intros. apply rs_zero. intros. ring. Qed.
Lemma distribute_product n (u v : nat -> nat -> R) (w : nat -> R) rows cols I J :
  distribute G (fun i j => rsum n (fun q => u i q * v j q * w q)) rows cols I J =
  rsum n (fun q => rsum nl (fun i => weight G I (rows i) * u i q) * rsum nl (fun j => weight G J (cols j) * v j q) * w q).
Proof.
  rewrite distribute_rsum. apply rsum_ext. intros q _. unfold distribute.
  transitivity (rsum nl (fun i => weight G I (rows i) * u i q * (rsum nl (fun j => weight G J (cols j) * v j q) * w q))).
  - apply rsum_ext. intros i _. rewrite <- rs_scal_r, <- rsum_scal. apply rsum_ext. intros j _. ring.
  - rewrite rs_scal_r. ring.
Qed.
Lemma distribute_row_zero A rows cols I J : (forall i, (i < nl)%nat -> weight G I (rows i) = 0) -> distribute G A rows cols I J = 0.
Proof. intros X. apply rs_zero. intros i Hi. apply rs_zero. intros j _. rewrite X by exact Hi. ring. Qed.
Lemma distribute_col_zero A rows cols I J : (forall i, (i < nl)%nat -> weight G J (cols i) = 0) -> distribute G A rows cols I J = 0.
Proof. intros X. apply rs_zero. intros i _. apply rs_zero. intros j Hj. rewrite X by exact Hj. ring. Qed.
Lemma distribute_sum_col A rows cols I :
  closed_constraints G -> (forall j, (j < nl)%nat -> (cols j < g_n_dofs G)%nat) ->
  rsum (g_n_dofs G) (fun J => distribute G A rows cols I J) = rsum nl (fun i => weight G I (rows i) * rsum nl (fun j => A i j)).
Proof.
  intros C L. unfold distribute. rewrite rs_swap. apply rsum_ext. intros i _. rewrite rs_swap, <- rsum_scal. apply rsum_ext. intros j Hj.
  rewrite (rsum_ext _ _ (fun J => weight G J (cols j) * (weight G I (rows i) * A i j))) by (intros; ring).
  rewrite rs_scal_r, weight_sum by auto. ring.
Qed.
Lemma distribute_swap A B rows cols I J :
  (forall i j, (i < nl)%nat -> (j < nl)%nat -> A i j = B j i) -> distribute G A rows cols I J = distribute G B cols rows J I.
Proof. intros X. unfold distribute. rewrite rs_swap. apply rsum_ext. intros i Hi. apply rsum_ext. intros j Hj. rewrite (X j i) by assumption. ring. Qed.

Lemma square_free c A I J : is_constrained G I = false -> distribute_square G c A I J = distribute G A (g_dof G c) (g_dof G c) I J.
Proof. intros X. unfold distribute_square. rewrite X, andb_false_r. ring. Qed.

(** ** Galerkin form *)
Lemma mass_galerkin I J : is_constrained G I = false -> mass_entry G I J = integral G (fun c q => basis G I c q * basis G J c q).
Proof.
  intros X. unfold mass_entry, serial, mass_tmp, over_cells, integral. apply rsum_ext. intros c C.
  rewrite square_free by exact X. unfold cell_mass.
  rewrite (distribute_ext _ (fun i j => rsum (g_n_points G) (fun q => g_value G c i q * g_value G c j q * g_JxW G c q)))
    by (intros; apply rsum_ext; intros; ring).
  rewrite distribute_product. reflexivity.
Qed.

Lemma cij_galerkin_cg d I J : g_discontinuous G = false -> is_constrained G I = false ->
  cij_entry G d I J = integral G (fun c q => basis G I c q * basis_grad G J c q d).
Proof.
  intros D X. unfold cij_entry, serial, cij_tmp, over_cells, integral. apply rsum_ext. intros c C.
  rewrite square_free by exact X. unfold cell_cij. rewrite D, Rplus_0_r.
  rewrite (distribute_ext _ (fun i j => rsum (g_n_points G) (fun q => g_value G c i q * g_grad G c j q d * g_JxW G c q)))
    by (intros; rewrite Rminus_0_r; apply rsum_ext; intros; ring).
  rewrite distribute_product. reflexivity.
Qed.

Lemma cij_galerkin_dg d I J : g_discontinuous G = true -> is_constrained G I = false ->
  cij_entry G d I J = integral G (fun c q => basis G I c q * basis_grad G J c q d)
    + 1 / 2 * interior_integral G (fun c f c' f' q =>
        g_normal G c f q d * basis_face G I c f q * (basis_face G J c' f' q - basis_face G J c f q)).
Proof.
  intros D X. unfold cij_entry, serial, cij_tmp, over_cells, integral, interior_integral.
  rewrite <- rsum_scal, <- rsum_plus. apply rsum_ext. intros c C.
  rewrite square_free by exact X. unfold cell_cij. rewrite D.
  rewrite distribute_minus, Rplus_comm. unfold Rminus at 1. rewrite Rplus_comm, Rplus_assoc. f_equal.
  - rewrite (distribute_ext _ (fun i j => rsum (g_n_points G) (fun q => g_value G c i q * g_grad G c j q d * g_JxW G c q)))
      by (intros; apply rsum_ext; intros; ring).
    rewrite distribute_product. reflexivity.
  - rewrite distribute_rsum. rewrite <- rsum_scal.
    match goal with |- - ?a + ?b = ?c => replace (- a + b) with (b - a) by ring end.
    rewrite <- rs_minus. apply rsum_ext. intros f F. unfold has_neighbor.
    destruct (g_neighbor G c f) as [[c' f']|].
    + unfold interface_cij.
      rewrite (distribute_ext _ (fun i j => rsum (g_n_face_points G) (fun q => g_face_value G c f i q * g_face_value G c' f' j q * (1 / 2 * g_normal G c f q d * g_face_JxW G c f q))))
        by (intros; apply rsum_ext; intros; ring).
      rewrite distribute_product.
      rewrite (distribute_ext (fun i j => rsum (g_n_face_points G) _) (fun i j => rsum (g_n_face_points G) (fun q => g_face_value G c f i q * g_face_value G c f j q * (1 / 2 * g_normal G c f q d * g_face_JxW G c f q))))
        by (intros; apply rsum_ext; intros; ring).
      rewrite distribute_product. rewrite <- rs_minus, <- rsum_scal. apply rsum_ext. intros q Q. unfold basis_face. ring.
    + rewrite distribute_zero. ring.
Qed.

(** ** Partition of unity *)
Lemma basis_sum c : closed_constraints G -> valid_indices G -> (c < g_n_cells G)%nat ->
  forall v : nat -> R, rsum (g_n_dofs G) (fun J => rsum nl (fun i => weight G J (g_dof G c i) * v i)) = rsum nl v.
Proof.
  intros C V L v. rewrite rs_swap. apply rsum_ext. intros i Hi. rewrite rs_scal_r, weight_sum by auto. ring.
Qed.

Lemma cij_row_sum d I : closed_constraints G -> valid_indices G -> partition_of_unity G ->
  (g_discontinuous G = true -> matching_faces G) -> is_constrained G I = false ->
  rsum (g_n_dofs G) (fun J => cij_entry G d I J) = 0.
Proof.
  intros C V P Nb X. unfold cij_entry, serial, cij_tmp, over_cells. rewrite rs_swap. apply rs_zero. intros c Lc.
  destruct (P c Lc) as [P1 P2]. rewrite rsum_plus.
  rewrite (rsum_ext _ (fun J => distribute_square G c _ I J) (fun J => distribute G (cell_cij G (fun _ => true) c d) (g_dof G c) (g_dof G c) I J))
    by (intros; apply square_free; exact X).
  rewrite distribute_sum_col by auto.
  assert (Cell : forall i, rsum nl (fun j => cell_cij G (fun _ => true) c d i j) =
    - (if g_discontinuous G then rsum (g_n_faces G) (fun f => if has_neighbor G (fun _ => true) c f then
         rsum (g_n_face_points G) (fun q => 1 / 2 * g_normal G c f q d * g_face_value G c f i q * g_face_JxW G c f q) else 0) else 0)).
  { intros i. unfold cell_cij. rewrite rs_minus. rewrite rs_swap, rs_zero.
    - unfold Rminus. rewrite Rplus_0_l. f_equal. destruct (g_discontinuous G); [|apply rs_zero; reflexivity].
      rewrite rs_swap. apply rsum_ext. intros f F. destruct (has_neighbor G (fun _ => true) c f); [|apply rs_zero; reflexivity].
      rewrite rs_swap. apply rsum_ext. intros q Q.
      rewrite (rsum_ext _ _ (fun j => g_face_value G c f j q * (1 / 2 * g_normal G c f q d * g_face_value G c f i q * g_face_JxW G c f q))) by (intros; ring).
      rewrite rs_scal_r, P2 by assumption. ring.
    - intros q Q. rewrite (rsum_ext _ _ (fun j => g_grad G c j q d * (g_value G c i q * g_JxW G c q))) by (intros; ring).
      rewrite rs_scal_r. destruct (P1 q Q) as [_ ->]. ring. }
  rewrite (rsum_ext nl _ (fun i => weight G I (g_dof G c i) * - _)) by (intros i Hi; rewrite Cell; reflexivity).
  destruct (g_discontinuous G) eqn:Disc.
  2:{ rewrite (rs_zero nl) by (intros; ring). rewrite rs_zero by reflexivity. ring. }
  rewrite (rs_swap (g_n_dofs G)).
  rewrite (rsum_ext (g_n_faces G) _ (fun f => rsum nl (fun i => weight G I (g_dof G c i) * (if has_neighbor G (fun _ => true) c f then
         rsum (g_n_face_points G) (fun q => 1 / 2 * g_normal G c f q d * g_face_value G c f i q * g_face_JxW G c f q) else 0)))).
  - rewrite (rs_swap (g_n_faces G)). rewrite <- rsum_plus. apply rs_zero. intros i _. rewrite rsum_scal. ring.
  - intros f F. unfold has_neighbor. destruct (g_neighbor G c f) as [[c' f']|] eqn:N.
    + destruct (Nb eq_refl c f c' f' Lc F N) as (C' & F' & _). rewrite distribute_sum_col by auto.
      apply rsum_ext. intros i _. f_equal. unfold interface_cij. rewrite rs_swap. apply rsum_ext. intros q Q.
      rewrite (rsum_ext _ _ (fun j => g_face_value G c' f' j q * (1 / 2 * g_normal G c f q d * g_face_value G c f i q * g_face_JxW G c f q))) by (intros; ring).
      rewrite rs_scal_r. destruct (P c' C') as [_ P2']. rewrite P2' by assumption. ring.
    + rewrite rs_zero by reflexivity. symmetry. apply rs_zero. intros. ring.
Qed.
End Assembly.
