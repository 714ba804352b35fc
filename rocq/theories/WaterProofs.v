(** * Lemmas: shallow water equations in depth and velocity *)
From Coq Require Import Reals Arith Lia Lra Psatz List.
From Verif Require Import RVec EulerSystem BalanceSpec BalanceProofs.
Import ListNotations.
Local Open Scope R_scope.

Definition water_state (h : R) (u : vec) : vec := fun k => if Nat.eqb k 0 then h else h * u (k - 1)%nat.

Lemma water_flux_veq g dim U V k j : (k < dim + 1)%nat -> (j < dim)%nat -> veq (dim + 1) U V ->
  water_flux g dim U k j = water_flux g dim V k j.
Proof.
  intros Hk Hj E. unfold water_flux. rewrite (E (S j)), (E k), (E 0%nat) by lia. reflexivity.
Qed.

Lemma water_residual g dim (h : R -> vec -> R) (u : field) (W : field) t x d
    ht (ut hx : vec) (ux : nat -> vec) M (G : vec) :
  0 < d ->
  (forall s, Rabs (s - t) < d -> veq (dim + 1) (W s x) (water_state (h s x) (u s x))) ->
  (forall j s, (j < dim)%nat -> Rabs s < d ->
     h t (along x j s) <> 0 /\ veq (dim + 1) (W t (along x j s)) (water_state (h t (along x j s)) (u t (along x j s)))) ->
  derivable_pt_lim (fun s => h s x) t ht ->
  (forall i, (i < dim)%nat -> derivable_pt_lim (fun s => u s x i) t (ut i)) ->
  (forall j, (j < dim)%nat -> derivable_pt_lim (fun s => h t (along x j s)) 0 (hx j)) ->
  (forall i j, (i < dim)%nat -> (j < dim)%nat -> derivable_pt_lim (fun s => u t (along x j s) i) 0 (ux i j)) ->
  ht + rsum dim (fun j => u t x j * hx j) + h t x * rsum dim (fun j => ux j j) = M ->
  (forall k, (k < dim)%nat -> h t x * (ut k + rsum dim (fun j => u t x j * ux k j) + g * hx k) = G k) ->
  balance_at dim (dim + 1) (water_flux g dim)
    (fun k => if Nat.eqb k 0 then M else M * u t x (k - 1)%nat + G (k - 1)%nat) W t x.
Proof.
  intros Hd Ht Hx Dht Dut Dhx Dux E1 E2.
  exists (fun k => if Nat.eqb k 0 then ht else ht * u t x (k - 1)%nat + h t x * ut (k - 1)%nat).
  exists (fun k j => if Nat.eqb k 0 then hx j * u t x j + h t x * ux j j
          else (hx j * u t x j + h t x * ux j j) * u t x (k - 1)%nat + h t x * u t x j * ux (k - 1)%nat j
               + (if Nat.eqb k (S j) then g * h t x * hx j else 0)).
  intros k Hk. cbv beta. split; [|split].
  - apply (D_near (fun s => water_state (h s x) (u s x) k) _ t _ d Hd).
    { intros s Hs. symmetry; apply (Ht s Hs); exact Hk. }
    unfold water_state. destruct (Nat.eqb_spec k 0); [exact Dht|]. apply D_mult; [exact Dht|apply Dut; lia].
  - intros j Hj.
    apply (D_near (fun s => if Nat.eqb k 0 then h t (along x j s) * u t (along x j s) j
        else h t (along x j s) * u t (along x j s) j * u t (along x j s) (k - 1)%nat
             + (if Nat.eqb k (S j) then g / 2 * (h t (along x j s) * h t (along x j s)) else 0)) _ 0 _ d Hd).
    { intros s Hs. rewrite Rminus_0_r in Hs. destruct (Hx j s Hj Hs) as [PP E].
      rewrite (water_flux_veq g dim _ _ k j Hk Hj E). unfold water_flux, water_state. cbn [Nat.eqb].
      replace (S j - 1)%nat with j by lia. destruct (Nat.eqb_spec k 0); [reflexivity|].
      destruct (Nat.eqb k (S j)); field; assumption. }
    assert (X0 : along x j 0 = x) by apply along_0.
    destruct (Nat.eqb_spec k 0) as [->|K0].
    + eapply D_eq; [apply D_mult; [apply Dhx; exact Hj|apply Dux; exact Hj]|]. cbv beta. rewrite X0. reflexivity.
    + eapply D_eq; [apply D_plus; [apply D_mult; [apply D_mult; [apply Dhx; exact Hj|apply Dux; exact Hj]|apply Dux; [lia|exact Hj]]|]|].
      * instantiate (1 := if Nat.eqb k (S j) then g * h t x * hx j else 0).
        destruct (Nat.eqb k (S j)); [|apply D_const].
        eapply D_eq; [apply D_scal; apply (D_mult (fun s => h t (along x j s)) (fun s => h t (along x j s))); apply Dhx; exact Hj|].
        cbv beta. rewrite X0. field.
      * cbv beta. rewrite X0. ring.
  - destruct (Nat.eqb_spec k 0) as [->|K0].
    { rewrite rsum_plus, rsum_scal. rewrite (rsum_ext dim _ (fun j => u t x j * hx j)) by (intros; ring). lra. }
    set (v := u t x (k - 1)%nat). rewrite !rsum_plus.
    rewrite (rsum_ext dim (fun j => (hx j * u t x j + h t x * ux j j) * v)
      (fun j => v * (u t x j * hx j) + v * h t x * ux j j)) by (intros; ring).
    rewrite (rsum_ext dim (fun j => h t x * u t x j * ux (k - 1)%nat j)
      (fun j => h t x * (u t x j * ux (k - 1)%nat j))) by (intros; ring).
    rewrite (rsum_ext dim (fun j => if Nat.eqb k (S j) then g * h t x * hx j else 0)
      (fun j => if Nat.eqb (k - 1) j then g * h t x * hx j else 0)).
    2:{ intros j _. destruct (Nat.eqb_spec k (S j)), (Nat.eqb_spec (k - 1) j); try reflexivity; lia. }
    rewrite rsum_plus, !rsum_scal, (rsum_delta dim (fun j => g * h t x * hx j)) by lia.
    pose proof (E2 (k - 1)%nat ltac:(lia)) as Z. rewrite <- Z, <- E1. ring.
Qed.

(** The equations with bathymetry and friction. *)
Lemma water_solves g dim (z : vec -> R) (F : vec -> vec) (h : R -> vec -> R) (u : field) (W : field) t x d
    ht (ut hx zx : vec) (ux : nat -> vec) :
  0 < d ->
  (forall s, Rabs (s - t) < d -> veq (dim + 1) (W s x) (water_state (h s x) (u s x))) ->
  (forall j s, (j < dim)%nat -> Rabs s < d ->
     h t (along x j s) <> 0 /\ veq (dim + 1) (W t (along x j s)) (water_state (h t (along x j s)) (u t (along x j s)))) ->
  derivable_pt_lim (fun s => h s x) t ht ->
  (forall i, (i < dim)%nat -> derivable_pt_lim (fun s => u s x i) t (ut i)) ->
  (forall j, (j < dim)%nat -> derivable_pt_lim (fun s => h t (along x j s)) 0 (hx j)) ->
  (forall j, (j < dim)%nat -> derivable_pt_lim (fun s => z (along x j s)) 0 (zx j)) ->
  (forall i j, (i < dim)%nat -> (j < dim)%nat -> derivable_pt_lim (fun s => u t (along x j s) i) 0 (ux i j)) ->
  ht + rsum dim (fun j => u t x j * hx j) + h t x * rsum dim (fun j => ux j j) = 0 ->
  (forall k, (k < dim)%nat ->
     h t x * (ut k + rsum dim (fun j => u t x j * ux k j) + g * (hx k + zx k)) = F (W t x) k) ->
  solves_shallow_water g dim z F W t x.
Proof.
  intros Hd Ht Hx Dht Dut Dhx Dzx Dux E1 E2. exists zx. split; [exact Dzx|].
  assert (W0 : W t x 0%nat = h t x).
  { rewrite (Ht t) by (try (rewrite Rminus_diag_eq, Rabs_R0 by reflexivity; exact Hd); lia). reflexivity. }
  destruct (water_residual g dim h u W t x d ht ut hx ux 0 (fun k => - g * h t x * zx k + F (W t x) k)
    Hd Ht Hx Dht Dut Dhx Dux E1) as (dt & dx & H).
  { intros k Hk. rewrite <- (E2 k Hk). ring. }
  exists dt, dx. intros k Hk. destruct (H k Hk) as (H1 & H2 & H3). split; [exact H1|]. split; [exact H2|].
  rewrite H3, W0. destruct (Nat.eqb k 0); [reflexivity|ring].
Qed.

(** Dry land: the state vanishes near the point. *)
Lemma dry_solves g dim (z : vec -> R) (F : vec -> vec) (W : field) t x d (zx : vec) :
  0 < d -> (forall s, Rabs (s - t) < d -> veq (dim + 1) (W s x) (fun _ => 0)) ->
  (forall j s, (j < dim)%nat -> Rabs s < d -> veq (dim + 1) (W t (along x j s)) (fun _ => 0)) ->
  (forall j, (j < dim)%nat -> derivable_pt_lim (fun s => z (along x j s)) 0 (zx j)) ->
  (forall k, (k < dim)%nat -> F (W t x) k = 0) ->
  solves_shallow_water g dim z F W t x.
Proof.
  intros Hd Ht Hx Dz HF. exists zx. split; [exact Dz|].
  assert (W0 : W t x 0%nat = 0).
  { rewrite (Ht t) by (try (rewrite Rminus_diag_eq, Rabs_R0 by reflexivity; exact Hd); lia). reflexivity. }
  exists (fun _ => 0), (fun _ _ => 0). intros k Hk. split; [|split].
  - apply (D_near (fun _ => 0) _ t _ d Hd); [|apply D_const]. intros s Hs. symmetry. apply (Ht s Hs k Hk).
  - intros j Hj. apply (D_near (fun _ => 0) _ 0 _ d Hd); [|apply D_const]. intros s Hs. rewrite Rminus_0_r in Hs.
    rewrite (water_flux_veq g dim _ _ k j Hk Hj (Hx j s Hj Hs)). unfold water_flux.
    destruct (Nat.eqb k 0); [reflexivity|]. unfold Rdiv. destruct (Nat.eqb k (S j)); ring.
  - rewrite rsum_0, W0. destruct (Nat.eqb_spec k 0); [ring|]. rewrite HF by lia. ring.
Qed.

(** ** Neighbourhoods *)
Definition near (x : R) (P : R -> Prop) : Prop := exists d, 0 < d /\ forall s, Rabs (s - x) < d -> P s.

Lemma near_all x (P : R -> Prop) : (forall s, P s) -> near x P.
Proof. intros H. exists 1. split; [lra|intros; apply H]. Qed.

Lemma near_mp x (P Q : R -> Prop) : near x P -> (forall s, P s -> Q s) -> near x Q.
Proof. intros (d & Hd & H) I. exists d. split; [exact Hd|]. intros s Hs. apply I, H, Hs. Qed.

Lemma near_and x (P Q : R -> Prop) : near x P -> near x Q -> near x (fun s => P s /\ Q s).
Proof.
  intros (d & Hd & H) (e & He & K). exists (Rmin d e). split; [apply Rmin_glb_lt; assumption|].
  intros s Hs. pose proof (Rmin_l d e). pose proof (Rmin_r d e). split; [apply H; lra|apply K; lra].
Qed.

Lemma near_pos f x a : derivable_pt_lim f x a -> 0 < f x -> near x (fun s => 0 < f s).
Proof.
  intros D P. assert (C : continuity_pt f x) by (apply derivable_continuous_pt; exists a; exact D).
  destruct (C (f x) P) as (d & Hd & H). exists d. split; [exact Hd|]. intros s Hs.
  destruct (Req_dec s x) as [->|N]; [exact P|].
  assert (K : Rabs (f s - f x) < f x).
  { specialize (H s). simpl in H. unfold R_dist in H. apply H. split; [split; [exact I|congruence]|exact Hs]. }
  apply Rabs_def2 in K. lra.
Qed.

Lemma near_lt f g x a b : derivable_pt_lim f x a -> derivable_pt_lim g x b -> f x < g x -> near x (fun s => f s < g s).
Proof.
  intros D1 D2 H. apply near_mp with (fun s => 0 < g s - f s); [|intros; lra].
  eapply near_pos; [apply D_minus; eassumption|]. cbv beta. lra.
Qed.

Lemma near_dirs dim (P : nat -> R -> Prop) : (forall j, (j < dim)%nat -> near 0 (P j)) ->
  exists d, 0 < d /\ forall j s, (j < dim)%nat -> Rabs s < d -> P j s.
Proof.
  induction dim as [|n IH]; intros H.
  - exists 1. split; [lra|intros; lia].
  - destruct IH as (d & Hd & K); [intros; apply H; lia|]. destruct (H n ltac:(lia)) as (e & He & L).
    exists (Rmin d e). split; [apply Rmin_glb_lt; assumption|]. intros j s Hj Hs.
    pose proof (Rmin_l d e). pose proof (Rmin_r d e).
    destruct (Nat.eq_dec j n) as [->|N]; [apply L; rewrite Rminus_0_r; lra|apply K; [lia|lra]].
Qed.

Lemma water_solves_near g dim (z : vec -> R) (F : vec -> vec) (h : R -> vec -> R) (u : field) (W : field) t x
    ht (ut hx zx : vec) (ux : nat -> vec) :
  near t (fun s => veq (dim + 1) (W s x) (water_state (h s x) (u s x))) ->
  (forall j, (j < dim)%nat -> near 0 (fun s =>
     h t (along x j s) <> 0 /\ veq (dim + 1) (W t (along x j s)) (water_state (h t (along x j s)) (u t (along x j s))))) ->
  derivable_pt_lim (fun s => h s x) t ht ->
  (forall i, (i < dim)%nat -> derivable_pt_lim (fun s => u s x i) t (ut i)) ->
  (forall j, (j < dim)%nat -> derivable_pt_lim (fun s => h t (along x j s)) 0 (hx j)) ->
  (forall j, (j < dim)%nat -> derivable_pt_lim (fun s => z (along x j s)) 0 (zx j)) ->
  (forall i j, (i < dim)%nat -> (j < dim)%nat -> derivable_pt_lim (fun s => u t (along x j s) i) 0 (ux i j)) ->
  ht + rsum dim (fun j => u t x j * hx j) + h t x * rsum dim (fun j => ux j j) = 0 ->
  (forall k, (k < dim)%nat ->
     h t x * (ut k + rsum dim (fun j => u t x j * ux k j) + g * (hx k + zx k)) = F (W t x) k) ->
  solves_shallow_water g dim z F W t x.
Proof.
  intros (d & Hd & Ht) Hx. destruct (near_dirs dim _ Hx) as (e & He & K).
  apply (water_solves g dim z F h u W t x (Rmin d e)).
  - apply Rmin_glb_lt; assumption.
  - intros s Hs. apply Ht. pose proof (Rmin_l d e). lra.
  - intros j s Hj Hs. apply K; [exact Hj|]. pose proof (Rmin_r d e). lra.
Qed.

Lemma dry_solves_near g dim (z : vec -> R) (F : vec -> vec) (W : field) t x (zx : vec) :
  near t (fun s => veq (dim + 1) (W s x) (fun _ => 0)) ->
  (forall j, (j < dim)%nat -> near 0 (fun s => veq (dim + 1) (W t (along x j s)) (fun _ => 0))) ->
  (forall j, (j < dim)%nat -> derivable_pt_lim (fun s => z (along x j s)) 0 (zx j)) ->
  (forall k, (k < dim)%nat -> F (W t x) k = 0) ->
  solves_shallow_water g dim z F W t x.
Proof.
  intros (d & Hd & Ht) Hx. destruct (near_dirs dim _ Hx) as (e & He & K).
  apply (dry_solves g dim z F W t x (Rmin d e)).
  - apply Rmin_glb_lt; assumption.
  - intros s Hs. apply Ht. pose proof (Rmin_l d e). lra.
  - intros j s Hj Hs. apply K; [exact Hj|]. pose proof (Rmin_r d e). lra.
Qed.

Lemma along_comp x i j s : along x j s i = x i + (if Nat.eqb i j then s else 0).
Proof. unfold along. destruct (Nat.eqb i j); ring. Qed.

Lemma D_along x i j : derivable_pt_lim (fun s => along x j s i) 0 (if Nat.eqb i j then 1 else 0).
Proof.
  unfold along. eapply D_eq; [apply D_plus; [apply D_const|apply D_mult; [apply D_id|apply D_const]]|].
  destruct (Nat.eqb i j); ring.
Qed.
