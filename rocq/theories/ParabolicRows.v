(** * The loops over the boundary map, row by row *)
From Coq Require Import Reals List Bool Arith Lia Lra Psatz.
From Verif Require Import RVec BoundaryMap EulerSystem Assembly AssemblySpec AssemblyProofs Parabolic ParabolicSpec.
Import ListNotations.
Local Open Scope R_scope.

Section Rows.
Variable G : geometry.
Variable bm : list description.
Variable initial_state : vec -> R -> vec.
Notation n := (g_n_dofs G).
Notation dim := (g_dim G).

(** The effect of an entry on its row: operator. *)
Definition fix_row (src : vec) (dst : vec) (e : description) : vec :=
  if Nat.eqb (d_id e) id_slip then
    vadd (remove_normal G (d_normal e) dst) (fun k => rsum dim (fun d => 1 * (src d * d_normal e d) * d_normal e k))
  else if Nat.eqb (d_id e) id_no_slip || Nat.eqb (d_id e) id_dirichlet then src else dst.

(** ... initial guess and right hand side of the velocity. *)
Definition rhs_row (t tau : R) (v : vec) (e : description) : vec :=
  if Nat.eqb (d_id e) id_slip then remove_normal G (d_normal e) v
  else if Nat.eqb (d_id e) id_no_slip then fun _ => 0
  else if Nat.eqb (d_id e) id_dirichlet then dirichlet_velocity initial_state (d_position e) (t + tau) else v.

(** ... energy. *)
Definition energy_row_of (t tau : R) (x : R) (e : description) : R :=
  if Nat.eqb (d_id e) id_dirichlet then dirichlet_energy G initial_state (d_position e) (t + tau) else x.
Definition energy_fix_row (src dst : R) (e : description) : R :=
  if Nat.eqb (d_id e) id_dirichlet then src else dst.

Lemma fold_row {A} (f : (nat -> A) -> description -> nat -> A) (g : A -> description -> A) I :
  (forall x e, d_index e <> I -> f x e I = x I) -> (forall x e, d_index e = I -> f x e I = g (x I) e) ->
  forall l x, fold_left f l x I = fold_left g (entries l I) (x I).
Proof.
  intros Ne Eq l. induction l as [|e l IH]; intros x; [reflexivity|]. cbn [fold_left entries filter].
  destruct (Nat.eqb_spec (d_index e) I) as [E|E].
  - cbn [fold_left]. rewrite IH, Eq by assumption. reflexivity.
  - rewrite IH, Ne by assumption. reflexivity.
Qed.

Lemma upd_same {A} (x : nat -> A) i v : upd x i v i = v.
Proof. unfold upd. rewrite Nat.eqb_refl. reflexivity. Qed.
Lemma upd_other {A} (x : nat -> A) i v k : i <> k -> upd x i v k = x k.
Proof. intros H. unfold upd. destruct (Nat.eqb_spec k i); congruence. Qed.

Lemma velocity_vmult_row par theta rho src I : (I < n)%nat ->
  velocity_vmult G par bm theta rho src I = fold_left (fix_row (src I)) (entries bm I) (velocity_stiffness G par theta rho src I).
Proof.
  intros L. unfold velocity_vmult. apply fold_row.
  - intros x e H. unfold velocity_fix. destruct (Nat.leb n (d_index e)); [reflexivity|].
    destruct (Nat.eqb (d_id e) id_slip); [apply upd_other; exact H|].
    destruct (_ || _); [apply upd_other; exact H|reflexivity].
  - intros x e H. unfold velocity_fix, fix_row. rewrite H. destruct (Nat.leb_spec n I); [lia|].
    destruct (Nat.eqb (d_id e) id_slip); [apply upd_same|].
    destruct (_ || _); [apply upd_same|reflexivity].
Qed.

Lemma energy_vmult_row factor rho src I : (I < n)%nat ->
  energy_vmult G bm factor rho src I = fold_left (energy_fix_row (src I)) (entries bm I) (energy_stiffness G factor rho src I).
Proof.
  intros L. unfold energy_vmult. apply fold_row.
  - intros x e H. unfold energy_fix. destruct (Nat.leb n (d_index e)); [reflexivity|].
    destruct (Nat.eqb (d_id e) id_dirichlet); [apply upd_other; exact H|reflexivity].
  - intros x e H. unfold energy_fix, energy_fix_row. rewrite H. destruct (Nat.leb_spec n I); [lia|].
    destruct (Nat.eqb (d_id e) id_dirichlet); [apply upd_same|reflexivity].
Qed.

Lemma energy_rhs_row par U t tau en v I : free G I ->
  energy_rhs G par bm initial_state U t tau en v I = fold_left (energy_row_of t tau) (entries bm I) (energy_rhs_0 G par U tau en v I).
Proof.
  intros F. unfold energy_rhs, set_zero. rewrite (free_not_constrained G I F). destruct F as [L _]. apply fold_row.
  - intros x e H. unfold energy_boundary. destruct (Nat.leb n (d_index e)); [reflexivity|].
    destruct (Nat.eqb (d_id e) id_dirichlet); [apply upd_other; exact H|reflexivity].
  - intros x e H. unfold energy_boundary, energy_row_of. rewrite H. destruct (Nat.leb_spec n I); [lia|].
    destruct (Nat.eqb (d_id e) id_dirichlet); [apply upd_same|reflexivity].
Qed.

(** The triple of step 1 *)
Lemma step_1_fold t tau I : (I < n)%nat -> forall l v b e,
  let '(v', b', e') := fold_left (boundary_1 G initial_state t tau) l (v, b, e) in
  v' I = fold_left (rhs_row t tau) (entries l I) (v I) /\
  b' I = fold_left (rhs_row t tau) (entries l I) (b I) /\
  e' I = fold_left (energy_row_of t tau) (entries l I) (e I).
Proof.
  intros L l. induction l as [|x l IH]; intros v b e; [cbn; auto|]. cbn [fold_left entries filter].
  destruct (Nat.eqb_spec (d_index x) I) as [E|E].
  - cbn [fold_left]. unfold boundary_1 at 2, rhs_row at 2 4, energy_row_of at 2. rewrite E. destruct (Nat.leb_spec n I); [lia|].
    destruct (Nat.eqb_spec (d_id x) id_slip) as [Es|Es].
    { rewrite Es. cbn [Nat.eqb id_slip id_dirichlet].
      specialize (IH (upd v I (remove_normal G (d_normal x) (v I))) (upd b I (remove_normal G (d_normal x) (b I))) e).
      rewrite !upd_same in IH. exact IH. }
    destruct (Nat.eqb_spec (d_id x) id_no_slip) as [En|En].
    { rewrite En. cbn [Nat.eqb id_no_slip id_dirichlet].
      specialize (IH (upd v I (fun _ => 0)) (upd b I (fun _ => 0)) e). rewrite !upd_same in IH. exact IH. }
    destruct (Nat.eqb_spec (d_id x) id_dirichlet) as [Ed|Ed].
    { specialize (IH (upd v I (dirichlet_velocity initial_state (d_position x) (t + tau))) (upd b I (dirichlet_velocity initial_state (d_position x) (t + tau)))
        (upd e I (dirichlet_energy G initial_state (d_position x) (t + tau)))). rewrite !upd_same in IH. exact IH. }
    apply IH.
  - assert (Q : exists v1 b1 e1, boundary_1 G initial_state t tau (v, b, e) x = (v1, b1, e1) /\ v1 I = v I /\ b1 I = b I /\ e1 I = e I).
    { unfold boundary_1. destruct (Nat.leb n (d_index x)); [exists v, b, e; auto|].
      destruct (Nat.eqb (d_id x) id_slip); [do 3 eexists; split; [reflexivity|]; rewrite !upd_other by exact E; auto|].
      destruct (Nat.eqb (d_id x) id_no_slip); [do 3 eexists; split; [reflexivity|]; rewrite !upd_other by exact E; auto|].
      destruct (Nat.eqb (d_id x) id_dirichlet); [do 3 eexists; split; [reflexivity|]; rewrite !upd_other by exact E; auto|].
      exists v, b, e; auto. }
    destruct Q as (v1 & b1 & e1 & -> & <- & <- & <-). apply IH.
Qed.

Lemma step_1_row U t tau v b e I : step_1 G bm initial_state U t tau = (v, b, e) -> free G I ->
  v I = fold_left (rhs_row t tau) (entries bm I) (velocity_0 U I) /\
  b I = fold_left (rhs_row t tau) (entries bm I) (velocity_rhs_0 G U I) /\
  e I = fold_left (energy_row_of t tau) (entries bm I) (internal_energy_0 G U I).
Proof.
  unfold step_1. intros E F. assert (Q := step_1_fold t tau I (proj1 F) bm (velocity_0 U) (velocity_rhs_0 G U) (internal_energy_0 G U)).
  destruct (fold_left _ _ _) as [[v0 b0] e0]. injection E as <- <- <-. unfold set_zero_block, set_zero.
  rewrite (free_not_constrained G I F). exact Q.
Qed.
Lemma step_1_zero U t tau v b e I : step_1 G bm initial_state U t tau = (v, b, e) -> is_constrained G I = true ->
  (forall d, v I d = 0) /\ (forall d, b I d = 0) /\ e I = 0.
Proof.
  unfold step_1. destruct (fold_left _ _ _) as [[v0 b0] e0]. intros E X. injection E as <- <- <-. unfold set_zero_block, set_zero.
  rewrite X. auto.
Qed.

(** ** Rows without strong conditions *)
Definition inactive (l : list description) : Prop := forall e, In e l -> d_id e <> 2%nat /\ d_id e <> 3%nat /\ d_id e <> 4%nat.

Ltac ids e := unfold id_slip, id_no_slip, id_dirichlet in *;
  repeat match goal with |- context [Nat.eqb (d_id e) ?k] => destruct (Nat.eqb_spec (d_id e) k) end; cbn [orb]; try lia; try congruence.

Lemma fix_inactive src l : inactive l -> forall dst, fold_left (fix_row src) l dst = dst.
Proof.
  induction l as [|e l IH]; intros H dst; [reflexivity|]. cbn [fold_left]. rewrite IH by (intros x I; apply H; right; exact I).
  destruct (H e (or_introl eq_refl)) as (A & B & C). unfold fix_row. ids e.
Qed.
Lemma rhs_inactive t tau l : inactive l -> forall v, fold_left (rhs_row t tau) l v = v.
Proof.
  induction l as [|e l IH]; intros H v; [reflexivity|]. cbn [fold_left]. rewrite IH by (intros x I; apply H; right; exact I).
  destruct (H e (or_introl eq_refl)) as (A & B & C). unfold rhs_row. ids e.
Qed.
Lemma energy_inactive t tau l : (forall e, In e l -> d_id e <> 4%nat) -> forall x, fold_left (energy_row_of t tau) l x = x.
Proof.
  induction l as [|e l IH]; intros H x; [reflexivity|]. cbn [fold_left]. rewrite IH by (intros y I; apply H; right; exact I).
  assert (A := H e (or_introl eq_refl)). unfold energy_row_of. ids e.
Qed.
Lemma energy_fix_inactive src l : (forall e, In e l -> d_id e <> 4%nat) -> forall x, fold_left (energy_fix_row src) l x = x.
Proof.
  induction l as [|e l IH]; intros H x; [reflexivity|]. cbn [fold_left]. rewrite IH by (intros y I; apply H; right; exact I).
  assert (A := H e (or_introl eq_refl)). unfold energy_fix_row. ids e.
Qed.

(** ** Rows with a no slip or Dirichlet condition are the identity *)
Lemma fix_identity_keeps src l : forall dst, (forall k, dst k = src k) -> forall k, fold_left (fix_row src) l dst k = src k.
Proof.
  induction l as [|e l IH]; intros dst H; [exact H|]. cbn [fold_left]. apply IH. intros k. unfold fix_row.
  destruct (Nat.eqb (d_id e) id_slip).
  - unfold vadd, remove_normal, vsub, vscal, dot. rewrite H. rewrite rs_scal_r.
    rewrite (rsum_ext _ (fun d => dst d * d_normal e d) (fun d => src d * d_normal e d)) by (intros d _; rewrite H; reflexivity).
    rewrite rsum_scal. ring.
  - destruct (_ || _); [reflexivity|apply H].
Qed.
Lemma fix_identity src l : (exists e, In e l /\ (d_id e = 3%nat \/ d_id e = 4%nat)) ->
  forall dst k, fold_left (fix_row src) l dst k = src k.
Proof.
  induction l as [|e l IH]; intros (x & I & H) dst; [destruct I|]. cbn [fold_left]. destruct I as [->|I].
  - apply fix_identity_keeps. intros k. unfold fix_row. ids x.
  - apply IH. exists x. auto.
Qed.
Lemma energy_fix_identity src l : (exists e, In e l /\ d_id e = 4%nat) -> forall dst, fold_left (energy_fix_row src) l dst = src.
Proof.
  assert (K : forall l dst, dst = src -> fold_left (energy_fix_row src) l dst = src).
  { clear. induction l as [|e l IH]; intros dst ->; [reflexivity|]. cbn [fold_left]. apply IH. unfold energy_fix_row.
    destruct (Nat.eqb _ _); reflexivity. }
  induction l as [|e l IH]; intros (x & I & H) dst; [destruct I|]. cbn [fold_left]. destruct I as [->|I].
  - apply K. unfold energy_fix_row. ids x.
  - apply IH. exists x. auto.
Qed.

(** Right hand sides. *)
Lemma rhs_no_slip t tau l : (exists e, In e l /\ d_id e = 3%nat) -> (forall e, In e l -> d_id e <> 4%nat) ->
  forall v d, (d < dim)%nat -> fold_left (rhs_row t tau) l v d = 0.
Proof.
  assert (K : forall l v, (forall e, In e l -> d_id e <> 4%nat) -> (forall d, (d < dim)%nat -> v d = 0) ->
    forall d, (d < dim)%nat -> fold_left (rhs_row t tau) l v d = 0).
  { clear. induction l as [|e l IH]; intros v N Z; [exact Z|]. cbn [fold_left]. apply IH; [intros x I; apply N; right; exact I|].
    assert (A := N e (or_introl eq_refl)). intros d L. unfold rhs_row. ids e; [|apply Z; exact L].
    unfold remove_normal, vsub, vscal, dot. rewrite Z by exact L. rewrite rs_zero by (intros j Lj; rewrite Z by exact Lj; ring). ring. }
  induction l as [|e l IH]; intros (x & I & H) N v; [destruct I|]. cbn [fold_left]. destruct I as [->|I].
  - apply K; [intros y I; apply N; right; exact I|]. intros d _. unfold rhs_row. ids x.
  - apply IH; [exists x; auto|intros y J; apply N; right; exact J].
Qed.
Lemma rhs_dirichlet t tau l x : (exists e, In e l /\ d_id e = 4%nat) ->
  (forall e, In e l -> d_id e <> 2%nat /\ d_id e <> 3%nat) -> (forall e, In e l -> d_id e = 4%nat -> d_position e = x) ->
  forall v, fold_left (rhs_row t tau) l v = dirichlet_velocity initial_state x (t + tau).
Proof.
  assert (K : forall l v, (forall e, In e l -> d_id e <> 2%nat /\ d_id e <> 3%nat) -> (forall e, In e l -> d_id e = 4%nat -> d_position e = x) ->
    v = dirichlet_velocity initial_state x (t + tau) -> fold_left (rhs_row t tau) l v = dirichlet_velocity initial_state x (t + tau)).
  { clear. induction l as [|e l IH]; intros v N P Z; [exact Z|]. cbn [fold_left].
    apply IH; [intros y I; apply N; right; exact I|intros y I; apply P; right; exact I|].
    destruct (N e (or_introl eq_refl)) as [A B]. assert (Q := P e (or_introl eq_refl)). unfold rhs_row. ids e. rewrite Q by assumption. reflexivity. }
  induction l as [|e l IH]; intros (y & I & H) N P v; [destruct I|]. cbn [fold_left]. destruct I as [->|I].
  - apply K; [intros z I; apply N; right; exact I|intros z I; apply P; right; exact I|].
    unfold rhs_row. ids y. rewrite (P y (or_introl eq_refl) H). reflexivity.
  - apply IH; [exists y; auto|intros z J; apply N; right; exact J|intros z J; apply P; right; exact J].
Qed.
Lemma energy_dirichlet t tau l x : (exists e, In e l /\ d_id e = 4%nat) -> (forall e, In e l -> d_id e = 4%nat -> d_position e = x) ->
  forall v, fold_left (energy_row_of t tau) l v = dirichlet_energy G initial_state x (t + tau).
Proof.
  assert (K : forall l v, (forall e, In e l -> d_id e = 4%nat -> d_position e = x) ->
    v = dirichlet_energy G initial_state x (t + tau) -> fold_left (energy_row_of t tau) l v = dirichlet_energy G initial_state x (t + tau)).
  { clear. induction l as [|e l IH]; intros v P Z; [exact Z|]. cbn [fold_left].
    apply IH; [intros y I; apply P; right; exact I|].
    assert (Q := P e (or_introl eq_refl)). unfold energy_row_of. ids e. rewrite Q by assumption. reflexivity. }
  induction l as [|e l IH]; intros (y & I & H) P v; [destruct I|]. cbn [fold_left]. destruct I as [->|I].
  - apply K; [intros z I; apply P; right; exact I|]. unfold energy_row_of. ids y. rewrite (P y (or_introl eq_refl) H). reflexivity.
  - apply IH; [exists y; auto|intros z J; apply P; right; exact J].
Qed.

(** ** Slip conditions *)
Lemma slip_dot nu dst src w :
  dot dim (vadd (remove_normal G nu dst) (fun k => rsum dim (fun d => 1 * (src d * nu d) * nu k))) w =
  dot dim dst w + (dot dim src nu - dot dim dst nu) * dot dim nu w.
Proof.
  rewrite dot_add_l. unfold remove_normal. rewrite dot_sub_l, dot_scal_l.
  replace (dot dim (fun k => rsum dim (fun d => 1 * (src d * nu d) * nu k)) w) with (dot dim src nu * dot dim nu w).
  - ring.
  - unfold dot at 3. rewrite <- dot_scal_l. apply rsum_ext. intros k _. unfold vscal. f_equal.
    rewrite rs_scal_r. f_equal. unfold dot. apply rsum_ext. intros; ring.
Qed.
Lemma remove_dot nu dst w : dot dim (remove_normal G nu dst) w = dot dim dst w - dot dim dst nu * dot dim nu w.
Proof. unfold remove_normal. rewrite dot_sub_l, dot_scal_l. ring. Qed.

Definition slips (l : list description) : list vec := map d_normal (with_id 2 l).
Definition soft (l : list description) : Prop := forall e, In e l -> d_id e <> 3%nat /\ d_id e <> 4%nat.

Lemma slips_cons e l : slips (e :: l) = if Nat.eqb (d_id e) 2 then d_normal e :: slips l else slips l.
Proof. unfold slips, with_id. cbn [filter]. destruct (Nat.eqb (d_id e) 2); reflexivity. Qed.

(** Directions orthogonal to the normals are not touched. *)
Lemma fix_orthogonal src w l : soft l -> (forall nu, In nu (slips l) -> dot dim nu w = 0) ->
  forall dst, dot dim (fold_left (fix_row src) l dst) w = dot dim dst w.
Proof.
  induction l as [|e l IH]; intros N O dst; [reflexivity|]. cbn [fold_left].
  destruct (N e (or_introl eq_refl)) as [A B]. rewrite slips_cons in O.
  rewrite IH; [|intros x I; apply N; right; exact I|intros nu I; apply O; destruct (Nat.eqb (d_id e) 2); [right|]; exact I].
  unfold fix_row. ids e. rewrite slip_dot. rewrite (O (d_normal e) (or_introl eq_refl)). ring.
Qed.
Lemma rhs_orthogonal t tau w l : soft l -> (forall nu, In nu (slips l) -> dot dim nu w = 0) ->
  forall v, dot dim (fold_left (rhs_row t tau) l v) w = dot dim v w.
Proof.
  induction l as [|e l IH]; intros N O v; [reflexivity|]. cbn [fold_left].
  destruct (N e (or_introl eq_refl)) as [A B]. rewrite slips_cons in O.
  rewrite IH; [|intros x I; apply N; right; exact I|intros nu I; apply O; destruct (Nat.eqb (d_id e) 2); [right|]; exact I].
  unfold rhs_row. ids e. rewrite remove_dot. rewrite (O (d_normal e) (or_introl eq_refl)). ring.
Qed.

Lemma orthonormal_cons nu ns : orthonormal dim (nu :: ns) -> dot dim nu nu = 1 /\ (forall x, In x ns -> dot dim nu x = 0) /\ orthonormal dim ns.
Proof.
  intros [U O]. inversion O as [|a l F O']. subst. split; [apply U; left; reflexivity|]. split.
  - apply Forall_forall. exact F.
  - split; [intros x I; apply U; right; exact I|exact O'].
Qed.

(** The normal components of the result are those of the source; of the right hand side: zero. *)
Lemma fix_normal src l : soft l -> orthonormal dim (slips l) ->
  forall nu, In nu (slips l) -> forall dst, dot dim (fold_left (fix_row src) l dst) nu = dot dim src nu.
Proof.
  induction l as [|e l IH]; intros N O nu I dst; [destruct I|]. cbn [fold_left].
  destruct (N e (or_introl eq_refl)) as [A B]. rewrite slips_cons in O, I.
  assert (N' : soft l) by (intros x J; apply N; right; exact J).
  destruct (Nat.eqb_spec (d_id e) 2) as [E|E].
  - destruct (orthonormal_cons _ _ O) as (U & P & O'). destruct I as [<-|I].
    + rewrite fix_orthogonal; [|exact N'|intros x J; rewrite dot_comm; apply P; exact J].
      unfold fix_row. ids e. rewrite slip_dot, U. ring.
    + apply IH; assumption.
  - apply IH; assumption.
Qed.
Lemma rhs_normal t tau l : soft l -> orthonormal dim (slips l) ->
  forall nu, In nu (slips l) -> forall v, dot dim (fold_left (rhs_row t tau) l v) nu = 0.
Proof.
  induction l as [|e l IH]; intros N O nu I v; [destruct I|]. cbn [fold_left].
  destruct (N e (or_introl eq_refl)) as [A B]. rewrite slips_cons in O, I.
  assert (N' : soft l) by (intros x J; apply N; right; exact J).
  destruct (Nat.eqb_spec (d_id e) 2) as [E|E].
  - destruct (orthonormal_cons _ _ O) as (U & P & O'). destruct I as [<-|I].
    + rewrite rhs_orthogonal; [|exact N'|intros x J; rewrite dot_comm; apply P; exact J].
      unfold rhs_row. ids e. rewrite remove_dot, U. ring.
    + apply IH; assumption.
  - apply IH; assumption.
Qed.
End Rows.
