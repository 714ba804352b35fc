(** * Lemmas on balance laws *)
From Coq Require Import Reals Arith Lia Lra Psatz FunctionalExtensionality.
From Verif Require Import RVec BalanceSpec.
Local Open Scope R_scope.

(** ** Derivatives *)
Lemma D_eq f x a b : derivable_pt_lim f x a -> a = b -> derivable_pt_lim f x b.
Proof. intros H <-; exact H. Qed.

Lemma D_const c x : derivable_pt_lim (fun _ => c) x 0.
Proof. apply (derivable_pt_lim_const c). Qed.

Lemma D_id x : derivable_pt_lim (fun s => s) x 1.
Proof. apply derivable_pt_lim_id. Qed.

Lemma D_plus f g x a b :
  derivable_pt_lim f x a -> derivable_pt_lim g x b -> derivable_pt_lim (fun s => f s + g s) x (a + b).
Proof. apply derivable_pt_lim_plus. Qed.

Lemma D_minus f g x a b :
  derivable_pt_lim f x a -> derivable_pt_lim g x b -> derivable_pt_lim (fun s => f s - g s) x (a - b).
Proof. apply derivable_pt_lim_minus. Qed.

Lemma D_opp f x a : derivable_pt_lim f x a -> derivable_pt_lim (fun s => - f s) x (- a).
Proof. apply derivable_pt_lim_opp. Qed.

Lemma D_mult f g x a b :
  derivable_pt_lim f x a -> derivable_pt_lim g x b ->
  derivable_pt_lim (fun s => f s * g s) x (a * g x + f x * b).
Proof. apply derivable_pt_lim_mult. Qed.

Lemma D_scal c f x a : derivable_pt_lim f x a -> derivable_pt_lim (fun s => c * f s) x (c * a).
Proof. apply (derivable_pt_lim_scal f c). Qed.

Lemma D_div f g x a b : g x <> 0 ->
  derivable_pt_lim f x a -> derivable_pt_lim g x b ->
  derivable_pt_lim (fun s => f s / g s) x ((a * g x - b * f x) / (g x * g x)).
Proof. intros H F G. apply (derivable_pt_lim_div f g x a b F G H). Qed.

Lemma D_comp f g x a b :
  derivable_pt_lim g x b -> derivable_pt_lim f (g x) a ->
  derivable_pt_lim (fun s => f (g s)) x (a * b).
Proof. intros G F. apply (derivable_pt_lim_comp g f x b a G F). Qed.

Lemma D_rsum n (F : nat -> R -> R) x d :
  (forall k, (k < n)%nat -> derivable_pt_lim (F k) x (d k)) ->
  derivable_pt_lim (fun s => rsum n (fun k => F k s)) x (rsum n d).
Proof.
  induction n as [|n IH]; intros H; simpl; [apply D_const|].
  apply D_plus; [apply IH; intros; apply H; lia|apply H; lia].
Qed.

Lemma D_near f g x l d : 0 < d -> (forall s, Rabs (s - x) < d -> f s = g s) ->
  derivable_pt_lim f x l -> derivable_pt_lim g x l.
Proof.
  intros Hd H. apply (derivable_pt_lim_locally_ext f g x (x - d) (x + d) l); [lra|].
  intros z Hz. apply H. apply Rabs_def1; lra.
Qed.

Lemma D_exp f x a : derivable_pt_lim f x a -> derivable_pt_lim (fun s => exp (f s)) x (exp (f x) * a).
Proof. intros H. apply (D_comp exp f x (exp (f x)) a H (derivable_pt_lim_exp (f x))). Qed.

Lemma D_cos f x a : derivable_pt_lim f x a -> derivable_pt_lim (fun s => cos (f s)) x (- sin (f x) * a).
Proof. intros H. apply (D_comp cos f x (- sin (f x)) a H (derivable_pt_lim_cos (f x))). Qed.

Lemma D_sin f x a : derivable_pt_lim f x a -> derivable_pt_lim (fun s => sin (f s)) x (cos (f x) * a).
Proof. intros H. apply (D_comp sin f x (cos (f x)) a H (derivable_pt_lim_sin (f x))). Qed.

Lemma D_sqrt f x a : 0 < f x -> derivable_pt_lim f x a ->
  derivable_pt_lim (fun s => sqrt (f s)) x (/ (2 * sqrt (f x)) * a).
Proof. intros P H. apply (D_comp sqrt f x _ a H (derivable_pt_lim_sqrt (f x) P)). Qed.

Lemma powr_pos x b : 0 < x -> powr x b = Rpower x b.
Proof. intros H. unfold powr. destruct (Rlt_dec 0 x); [reflexivity|contradiction]. Qed.

Lemma powr_gt x b : 0 < x -> 0 < powr x b.
Proof. intros H. rewrite powr_pos by exact H. apply exp_pos. Qed.

Lemma D_powr e f x a : 0 < f x -> derivable_pt_lim f x a ->
  derivable_pt_lim (fun s => powr (f s) e) x (e * powr (f x) e / f x * a).
Proof.
  intros P H. apply (D_comp (fun y => powr y e) f x _ a H).
  apply (D_near (fun y => Rpower y e) _ (f x) _ (f x) P).
  { intros s Hs. apply Rabs_def2 in Hs. symmetry; apply powr_pos. lra. }
  eapply D_eq; [apply derivable_pt_lim_power; exact P|].
  rewrite powr_pos by exact P. unfold Rdiv.
  replace (e - 1) with (e + Ropp 1) by ring. rewrite Rpower_plus, Rpower_Ropp, Rpower_1 by exact P. ring.
Qed.

Lemma D_pow n f x a : derivable_pt_lim f x a ->
  derivable_pt_lim (fun s => f s ^ n) x (INR n * f x ^ (pred n) * a).
Proof. intros H. apply (D_comp (fun y => y ^ n) f x _ a H (derivable_pt_lim_pow (f x) n)). Qed.

Lemma along_0 x j : along x j 0 = x.
Proof. apply functional_extensionality; intros i. unfold along. ring. Qed.

(** ** Sums *)
Lemma rsum_swap n m (f : nat -> nat -> R) :
  rsum n (fun i => rsum m (fun j => f i j)) = rsum m (fun j => rsum n (fun i => f i j)).
Proof.
  induction n as [|n IH]; simpl; [symmetry; apply rsum_0|].
  rewrite IH, <- rsum_plus. reflexivity.
Qed.

Lemma rsum_delta n (f : nat -> R) k : (k < n)%nat ->
  rsum n (fun j => if Nat.eqb k j then f j else 0) = f k.
Proof.
  induction n as [|n IH]; intros H; simpl; [lia|].
  destruct (Nat.eqb_spec k n) as [->|N].
  - rewrite (rsum_ext n _ (fun _ => 0)).
    + rewrite rsum_0; ring.
    + intros j Hj. destruct (Nat.eqb_spec n j); [lia|reflexivity].
  - rewrite IH by lia. ring.
Qed.

(** ** Conserved states of a gas with density, velocity, pressure *)
Definition gas_state (gamma : R) (dim : nat) (rho : R) (u : vec) (p : R) : vec :=
  fun k => if Nat.eqb k 0 then rho
           else if Nat.eqb k (S dim) then p / (gamma - 1) + rho / 2 * rsum dim (fun i => u i * u i)
           else rho * u (k - 1)%nat.

Lemma gas_state_pressure gamma dim rho u p : gamma <> 1 -> 0 < rho ->
  gas_pressure gamma dim (gas_state gamma dim rho u p) = p.
Proof.
  intros Hg Hr. unfold gas_pressure, gas_state. rewrite Nat.eqb_refl. cbn [Nat.eqb].
  set (q := rsum dim (fun i => u i * u i)).
  match goal with |- context [rsum dim ?f] => replace (rsum dim f) with (rho * rho * q) end.
  - field. split; lra.
  - unfold q. rewrite <- rsum_scal. apply rsum_ext. intros i Hi. cbn [Nat.eqb].
    destruct (Nat.eqb_spec i dim); [lia|]. replace (S i - 1)%nat with i by lia. ring.
Qed.

Lemma gas_pressure_veq gamma dim U V : veq (dim + 2) U V -> gas_pressure gamma dim U = gas_pressure gamma dim V.
Proof.
  intros H. unfold gas_pressure. rewrite (H (S dim)), (H 0%nat) by lia.
  rewrite (rsum_ext dim _ (fun i => V (S i) * V (S i))); [reflexivity|].
  intros i Hi. rewrite H by lia. reflexivity.
Qed.

Lemma gas_flux_veq gamma dim U V k j : (k < dim + 2)%nat -> (j < dim)%nat ->
  veq (dim + 2) U V -> gas_flux gamma dim U k j = gas_flux gamma dim V k j.
Proof.
  intros Hk Hj H. unfold gas_flux. rewrite (gas_pressure_veq gamma dim U V H).
  rewrite (H (S j)), (H 0%nat), (H (S dim)), (H k) by lia. reflexivity.
Qed.

Definition primitive_flux (gamma : R) (dim : nat) (rho : R) (u : vec) (p : R) (k j : nat) : R :=
  if Nat.eqb k 0 then rho * u j
  else if Nat.eqb k (S dim) then
    u j * (gamma / (gamma - 1) * p + rho / 2 * rsum dim (fun i => u i * u i))
  else rho * u j * u (k - 1)%nat + (if Nat.eqb k (S j) then p else 0).

Lemma gas_flux_primitive gamma dim rho u p k j : gamma <> 1 -> 0 < rho -> (k < dim + 2)%nat -> (j < dim)%nat ->
  gas_flux gamma dim (gas_state gamma dim rho u p) k j = primitive_flux gamma dim rho u p k j.
Proof.
  intros Hg Hr Hk Hj. unfold gas_flux, primitive_flux. rewrite gas_state_pressure by assumption.
  unfold gas_state. cbn [Nat.eqb]. rewrite Nat.eqb_refl.
  destruct (Nat.eqb_spec j dim); [lia|].
  replace (S j - 1)%nat with j by lia.
  destruct (Nat.eqb_spec k 0) as [->|K0]; [reflexivity|].
  destruct (Nat.eqb_spec k (S dim)) as [->|K1].
  - field. split; lra.
  - replace (rho * u j * (rho * u (k - 1)%nat) / rho) with (rho * u j * u (k - 1)%nat) by (field; lra).
    reflexivity.
Qed.

(** ** The Euler equations in primitive variables imply the conservation laws *)
Lemma euler_residual gamma dim (rho p : R -> vec -> R) (u : field) (W : field) t x d
    rt pt (ut rx px : vec) (ux : nat -> vec) M P (G : vec) :
  gamma <> 1 -> 0 < d ->
  (forall s, Rabs (s - t) < d ->
     0 < rho s x /\ veq (dim + 2) (W s x) (gas_state gamma dim (rho s x) (u s x) (p s x))) ->
  (forall j s, (j < dim)%nat -> Rabs s < d ->
     0 < rho t (along x j s) /\
     veq (dim + 2) (W t (along x j s))
       (gas_state gamma dim (rho t (along x j s)) (u t (along x j s)) (p t (along x j s)))) ->
  derivable_pt_lim (fun s => rho s x) t rt ->
  derivable_pt_lim (fun s => p s x) t pt ->
  (forall i, (i < dim)%nat -> derivable_pt_lim (fun s => u s x i) t (ut i)) ->
  (forall j, (j < dim)%nat -> derivable_pt_lim (fun s => rho t (along x j s)) 0 (rx j)) ->
  (forall j, (j < dim)%nat -> derivable_pt_lim (fun s => p t (along x j s)) 0 (px j)) ->
  (forall i j, (i < dim)%nat -> (j < dim)%nat ->
     derivable_pt_lim (fun s => u t (along x j s) i) 0 (ux i j)) ->
  rt + rsum dim (fun j => u t x j * rx j) + rho t x * rsum dim (fun j => ux j j) = M ->
  (forall k, (k < dim)%nat ->
     rho t x * (ut k + rsum dim (fun j => u t x j * ux k j)) + px k = G k) ->
  pt + rsum dim (fun j => u t x j * px j) + gamma * p t x * rsum dim (fun j => ux j j) = P ->
  balance_at dim (dim + 2) (gas_flux gamma dim)
    (fun k => if Nat.eqb k 0 then M
              else if Nat.eqb k (S dim) then
                P / (gamma - 1) + M / 2 * rsum dim (fun i => u t x i * u t x i) + rsum dim (fun i => u t x i * G i)
              else M * u t x (k - 1)%nat + G (k - 1)%nat) W t x.
Proof.
  intros Hg Hd Ht Hx Drt Dpt Dut Drx Dpx Dux E1 E2 E3.
  assert (X0 : forall k, along x k 0 = x) by (intros; apply along_0).
  exists (fun k => if Nat.eqb k 0 then rt
          else if Nat.eqb k (S dim) then
            pt / (gamma - 1) + (rt / 2 * rsum dim (fun i => u t x i * u t x i)
              + rho t x / 2 * rsum dim (fun i => ut i * u t x i + u t x i * ut i))
          else rt * u t x (k - 1)%nat + rho t x * ut (k - 1)%nat).
  exists (fun k j => if Nat.eqb k 0 then rx j * u t x j + rho t x * ux j j
          else if Nat.eqb k (S dim) then
            ux j j * (gamma / (gamma - 1) * p t x + rho t x / 2 * rsum dim (fun i => u t x i * u t x i))
            + u t x j * (gamma / (gamma - 1) * px j +
               (rx j / 2 * rsum dim (fun i => u t x i * u t x i)
              + rho t x / 2 * rsum dim (fun i => ux i j * u t x i + u t x i * ux i j)))
          else (rx j * u t x j + rho t x * ux j j) * u t x (k - 1)%nat
               + rho t x * u t x j * ux (k - 1)%nat j
               + (if Nat.eqb k (S j) then px j else 0)).
  intros k Hk. cbv beta. split; [|split].
  - apply (D_near (fun s => gas_state gamma dim (rho s x) (u s x) (p s x) k) _ t _ d Hd).
    { intros s Hs. destruct (Ht s Hs) as [_ E]. symmetry; apply E; exact Hk. }
    unfold gas_state. destruct (Nat.eqb_spec k 0) as [->|K0]; [exact Drt|].
    destruct (Nat.eqb_spec k (S dim)) as [->|K1].
    + apply D_plus.
      * eapply D_eq; [apply D_mult; [exact Dpt|apply D_const]|unfold Rdiv; ring].
      * eapply D_eq; [apply D_mult; [apply D_mult; [exact Drt|apply D_const]|]|].
        -- apply D_rsum with (d := fun i => ut i * u t x i + u t x i * ut i).
           intros i Hi. apply D_mult; apply Dut; exact Hi.
        -- unfold Rdiv. ring.
    + apply D_mult; [exact Drt|apply Dut; lia].
  - intros j Hj.
    apply (D_near (fun s => primitive_flux gamma dim (rho t (along x j s)) (u t (along x j s))
       (p t (along x j s)) k j) _ 0 _ d Hd).
    { intros s Hs. rewrite Rminus_0_r in Hs. destruct (Hx j s Hj Hs) as [PP E].
      rewrite (gas_flux_veq gamma dim _ _ k j Hk Hj E). symmetry; apply gas_flux_primitive; assumption. }
    unfold primitive_flux.
    assert (R0 : rho t (along x j 0) = rho t x) by (rewrite X0; reflexivity).
    assert (P0 : p t (along x j 0) = p t x) by (rewrite X0; reflexivity).
    assert (U0 : forall i, u t (along x j 0) i = u t x i) by (intros; rewrite X0; reflexivity).
    destruct (Nat.eqb_spec k 0) as [->|K0].
    { eapply D_eq; [apply D_mult; [apply Drx; exact Hj|apply Dux; exact Hj]|]. cbv beta; rewrite ?X0; reflexivity. }
    destruct (Nat.eqb_spec k (S dim)) as [->|K1].
    + eapply D_eq; [apply D_mult; [apply Dux; exact Hj|]|].
      * apply D_plus; [apply D_scal, Dpx; exact Hj|].
        apply D_mult; [apply D_mult; [apply Drx; exact Hj|apply D_const]|].
        apply D_rsum with (d := fun i => ux i j * u t (along x j 0) i + u t (along x j 0) i * ux i j).
        intros i Hi. apply (D_mult (fun s => u t (along x j s) i) (fun s => u t (along x j s) i)); apply Dux; assumption.
      * cbv beta; rewrite ?X0; unfold Rdiv; ring.
    + eapply D_eq; [apply D_plus; [apply D_mult; [apply D_mult; [apply Drx; exact Hj|apply Dux; exact Hj]|]|]|].
      * apply Dux; [lia|exact Hj].
      * instantiate (1 := if Nat.eqb k (S j) then px j else 0).
        destruct (Nat.eqb_spec k (S j)); [apply Dpx; exact Hj|apply D_const].
      * cbv beta; rewrite ?X0; ring.
  - destruct (Nat.eqb_spec k 0) as [->|K0].
    { rewrite rsum_plus, rsum_scal. rewrite (rsum_ext dim _ (fun j => u t x j * rx j)) by (intros; ring).
      lra. }
    destruct (Nat.eqb_spec k (S dim)) as [->|K1].
    + set (q := rsum dim (fun i => u t x i * u t x i)).
      rewrite (rsum_ext dim (fun j => ux j j * _ + _)
        (fun j => (gamma / (gamma - 1) * p t x + rho t x / 2 * q) * ux j j
          + (gamma / (gamma - 1) * (u t x j * px j)
          + (q / 2 * (u t x j * rx j) + rho t x * rsum dim (fun i => u t x i * (u t x j * ux i j)))))).
      2:{ intros j Hj. cbv beta.
          rewrite (rsum_ext dim (fun i => ux i j * u t x i + u t x i * ux i j) (fun i => 2 * (u t x i * ux i j)))
            by (intros; ring).
          rewrite rsum_scal.
          rewrite (rsum_ext dim (fun i => u t x i * (u t x j * ux i j)) (fun i => u t x j * (u t x i * ux i j)))
            by (intros; ring).
          rewrite rsum_scal. fold q. field. lra. }
      rewrite (rsum_ext dim (fun i => ut i * u t x i + u t x i * ut i) (fun i => 2 * (u t x i * ut i)))
        by (intros; ring).
      rewrite rsum_scal.
      rewrite !rsum_plus, !rsum_scal, rsum_swap.
      assert (MM : rho t x * rsum dim (fun i => u t x i * ut i)
                + rho t x * rsum dim (fun j => rsum dim (fun i => u t x j * (u t x i * ux j i)))
                + rsum dim (fun j => u t x j * px j) = rsum dim (fun i => u t x i * G i)).
      { rewrite <- !rsum_scal, <- !rsum_plus. apply rsum_ext.
        intros i Hi. rewrite rsum_scal. pose proof (E2 i Hi) as Z.
        replace (px i) with (G i - (rho t x * (ut i + rsum dim (fun j => u t x j * ux i j)))) by lra. ring. }
      set (A := rsum dim (fun j => ux j j)) in *.
      set (B := rsum dim (fun j => u t x j * px j)) in *.
      set (C := rsum dim (fun j => u t x j * rx j)) in *.
      set (D := rsum dim (fun i => u t x i * ut i)) in *.
      set (F := rsum dim (fun j => rsum dim (fun i => u t x j * (u t x i * ux j i)))) in *.
      replace (rho t x * F) with (rsum dim (fun i => u t x i * G i) - B - rho t x * D) by lra.
      set (V := rsum dim (fun i => u t x i * G i)) in *.
      rewrite <- E1, <- E3. field. lra.
    + set (v := u t x (k - 1)%nat).
      rewrite !rsum_plus.
      rewrite (rsum_ext dim (fun j => (rx j * u t x j + rho t x * ux j j) * v)
        (fun j => v * (u t x j * rx j) + v * rho t x * ux j j)) by (intros; ring).
      rewrite (rsum_ext dim (fun j => rho t x * u t x j * ux (k - 1)%nat j)
        (fun j => rho t x * (u t x j * ux (k - 1)%nat j))) by (intros; ring).
      rewrite (rsum_ext dim (fun j => if Nat.eqb k (S j) then px j else 0)
        (fun j => if Nat.eqb (k - 1) j then px j else 0)).
      2:{ intros j _. destruct (Nat.eqb_spec k (S j)), (Nat.eqb_spec (k - 1) j); try reflexivity; lia. }
      rewrite rsum_plus, !rsum_scal, rsum_delta by lia.
      pose proof (E2 (k - 1)%nat ltac:(lia)) as Z.
      rewrite <- Z, <- E1. ring.
Qed.

Lemma euler_primitive gamma dim (rho p : R -> vec -> R) (u : field) (W : field) t x d
    rt pt (ut rx px : vec) (ux : nat -> vec) :
  gamma <> 1 -> 0 < d ->
  (forall s, Rabs (s - t) < d ->
     0 < rho s x /\ veq (dim + 2) (W s x) (gas_state gamma dim (rho s x) (u s x) (p s x))) ->
  (forall j s, (j < dim)%nat -> Rabs s < d ->
     0 < rho t (along x j s) /\
     veq (dim + 2) (W t (along x j s))
       (gas_state gamma dim (rho t (along x j s)) (u t (along x j s)) (p t (along x j s)))) ->
  derivable_pt_lim (fun s => rho s x) t rt ->
  derivable_pt_lim (fun s => p s x) t pt ->
  (forall i, (i < dim)%nat -> derivable_pt_lim (fun s => u s x i) t (ut i)) ->
  (forall j, (j < dim)%nat -> derivable_pt_lim (fun s => rho t (along x j s)) 0 (rx j)) ->
  (forall j, (j < dim)%nat -> derivable_pt_lim (fun s => p t (along x j s)) 0 (px j)) ->
  (forall i j, (i < dim)%nat -> (j < dim)%nat ->
     derivable_pt_lim (fun s => u t (along x j s) i) 0 (ux i j)) ->
  rt + rsum dim (fun j => u t x j * rx j) + rho t x * rsum dim (fun j => ux j j) = 0 ->
  (forall k, (k < dim)%nat ->
     rho t x * (ut k + rsum dim (fun j => u t x j * ux k j)) + px k = 0) ->
  pt + rsum dim (fun j => u t x j * px j) + gamma * p t x * rsum dim (fun j => ux j j) = 0 ->
  solves_euler gamma dim W t x.
Proof.
  intros Hg Hd Ht Hx Drt Dpt Dut Drx Dpx Dux E1 E2 E3.
  destruct (euler_residual gamma dim rho p u W t x d rt pt ut rx px ux 0 0 (fun _ => 0)
    Hg Hd Ht Hx Drt Dpt Dut Drx Dpx Dux E1 E2 E3) as (dt & dx & H).
  exists dt, dx. intros k Hk. destruct (H k Hk) as (H1 & H2 & H3). split; [exact H1|]. split; [exact H2|].
  rewrite H3. unfold no_source. rewrite (rsum_ext dim (fun i => _ * 0) (fun _ => 0)) by (intros; ring). rewrite rsum_0.
  destruct (Nat.eqb k 0); [reflexivity|]. destruct (Nat.eqb k (S dim)); [field; lra|ring].
Qed.

(** The source is determined by the field. *)
Lemma balance_unique dim m f s1 s2 W t x k : (k < m)%nat ->
  balance_at dim m f s1 W t x -> balance_at dim m f s2 W t x -> s1 k = s2 k.
Proof.
  intros Hk (d1 & x1 & H1) (d2 & x2 & H2).
  destruct (H1 k Hk) as (A1 & B1 & C1). destruct (H2 k Hk) as (A2 & B2 & C2).
  rewrite <- C1, <- C2. f_equal.
  - exact (uniqueness_limite _ _ _ _ A1 A2).
  - apply rsum_ext. intros j Hj. exact (uniqueness_limite _ _ _ _ (B1 j Hj) (B2 j Hj)).
Qed.
