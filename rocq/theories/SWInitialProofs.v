(** * Lemmas: initial states of the shallow water equations *)
From Coq Require Import Reals Arith Lia Lra Psatz List.
From Verif Require Import RVec EulerSystem EulerInitialStates BalanceSpec BalanceProofs EulerInitialProofs
  EulerInitialFans EulerInitialMore EulerInitialNoh WaterProofs SWInitialStates SWInitialSpec.
Import ListNotations.
Local Open Scope R_scope.

Definition vel0 (v : R) : vec := fun i => if Nat.eqb i 0 then v else 0.

Lemma near_along x j (P : R -> Prop) : near (x 0%nat) P -> near 0 (fun s => P (along x j s 0%nat)).
Proof.
  intros (d & Hd & H). exists d. split; [exact Hd|]. intros s Hs. apply H. unfold along.
  rewrite Rminus_0_r in Hs. eapply Rle_lt_trans; [|exact Hs].
  replace (x 0%nat + s * (if Nat.eqb 0 j then 1 else 0) - x 0%nat) with (s * (if Nat.eqb 0 j then 1 else 0)) by ring.
  rewrite Rabs_mult. rewrite <- (Rmult_1_r (Rabs s)) at 2. apply Rmult_le_compat_l; [apply Rabs_pos|].
  destruct (Nat.eqb 0 j); [rewrite Rabs_R1|rewrite Rabs_R0]; lra.
Qed.

Lemma D_first f x j a : derivable_pt_lim f (x 0%nat) a ->
  derivable_pt_lim (fun s => f (along x j s 0%nat)) 0 (a * (if Nat.eqb 0 j then 1 else 0)).
Proof.
  intros D. eapply D_eq; [apply (D_comp f (fun s => along x j s 0%nat)); [apply D_along|]|].
  - cbv beta. rewrite along_0. exact D.
  - ring.
Qed.

(** A flow in direction of the first axis. *)
Lemma water_line g dim (z : vec -> R) (F : vec -> vec) (h v : R -> R -> R) (Z : R -> R) (W : field) t x ht hX vt vX zX :
  (1 <= dim)%nat ->
  (forall p, z p = Z (p 0%nat)) ->
  near t (fun s => veq (dim + 1) (W s x) (water_state (h s (x 0%nat)) (vel0 (v s (x 0%nat))))) ->
  near (x 0%nat) (fun y => h t y <> 0 /\ forall p, p 0%nat = y -> veq (dim + 1) (W t p) (water_state (h t y) (vel0 (v t y)))) ->
  derivable_pt_lim (fun s => h s (x 0%nat)) t ht ->
  derivable_pt_lim (fun s => v s (x 0%nat)) t vt ->
  derivable_pt_lim (fun y => h t y) (x 0%nat) hX ->
  derivable_pt_lim (fun y => v t y) (x 0%nat) vX ->
  derivable_pt_lim Z (x 0%nat) zX ->
  ht + v t (x 0%nat) * hX + h t (x 0%nat) * vX = 0 ->
  h t (x 0%nat) * (vt + v t (x 0%nat) * vX + g * (hX + zX)) = F (W t x) 0%nat ->
  (forall k, (1 <= k < dim)%nat -> F (W t x) k = 0) ->
  solves_shallow_water g dim z F W t x.
Proof.
  intros Hdim HZ Nt Nx Dht Dvt DhX DvX DzX E1 E2 E3.
  set (dl := fun j : nat => if Nat.eqb 0 j then 1 else 0).
  apply (water_solves_near g dim z F (fun s p => h s (p 0%nat)) (fun s p => vel0 (v s (p 0%nat))) W t x
    ht (fun i => if Nat.eqb i 0 then vt else 0) (fun j => hX * dl j) (fun j => zX * dl j)
    (fun i j => if Nat.eqb i 0 then vX * dl j else 0)).
  - exact Nt.
  - intros j Hj. eapply near_mp; [apply (near_along x j _ Nx)|]. cbv beta. intros s [N K]. split; [exact N|apply K; reflexivity].
  - exact Dht.
  - intros i Hi. unfold vel0. destruct (Nat.eqb i 0); [exact Dvt|apply D_const].
  - intros j Hj. apply (D_first (h t) x j). exact DhX.
  - intros j Hj. eapply D_near with (d := 1) (f := fun s => Z (along x j s 0%nat)); [lra|intros; symmetry; apply HZ|].
    apply D_first. exact DzX.
  - intros i j Hi Hj. unfold vel0. destruct (Nat.eqb i 0); [|apply D_const]. apply (D_first (v t) x j). exact DvX.
  - cbv beta. destruct dim as [|n]; [lia|].
    rewrite (rsum_ext (S n) _ (fun j => if Nat.eqb 0 j then v t (x 0%nat) * hX else 0)).
    2:{ intros j _. unfold vel0, dl. rewrite (Nat.eqb_sym j 0). destruct (Nat.eqb 0 j); ring. }
    rewrite (rsum_ext (S n) (fun j => if Nat.eqb j 0 then vX * dl j else 0) (fun j => if Nat.eqb 0 j then vX else 0)).
    2:{ intros j _. unfold dl. rewrite (Nat.eqb_sym j 0). destruct (Nat.eqb 0 j); ring. }
    rewrite (rsum_delta (S n) (fun _ => v t (x 0%nat) * hX) 0), (rsum_delta (S n) (fun _ => vX) 0) by lia. exact E1.
  - intros k Hk. cbv beta. destruct (Nat.eqb_spec k 0) as [->|K0].
    + rewrite (rsum_ext dim _ (fun j => if Nat.eqb 0 j then v t (x 0%nat) * vX else 0)).
      2:{ intros j _. unfold vel0, dl. rewrite (Nat.eqb_sym j 0). destruct (Nat.eqb 0 j); ring. }
      rewrite (rsum_delta dim (fun _ => v t (x 0%nat) * vX) 0) by lia. rewrite <- E2. unfold dl. cbn [Nat.eqb]. ring.
    + rewrite E3 by lia. rewrite (rsum_ext dim _ (fun _ => 0)) by (intros; ring). rewrite rsum_0.
      unfold dl. destruct k; [lia|]. cbn [Nat.eqb]. ring.
Qed.

(** ** Ritter's dam break *)
Definition rit_h (g a c : R) : R := 4 / (9 * g) * (a - c / 2) * (a - c / 2).
Definition rit_v (a c : R) : R := 2 / 3 * (c + a).

Lemma D_rit_h g a c : 0 < g -> derivable_pt_lim (rit_h g a) c (- (4 / (9 * g)) * (a - c / 2)).
Proof.
  intros Hg. unfold rit_h.
  assert (D : derivable_pt_lim (fun c => a - c / 2) c (- (1 / 2))).
  { eapply D_eq; [apply D_minus; [apply D_const|apply D_div; [|apply D_id|apply D_const]]|].
    - lra.
    - cbv beta. field. }
  eapply D_eq; [apply D_mult; [apply D_scal; exact D|exact D]|]. cbv beta. field; lra.
Qed.
Lemma D_rit_v a c : derivable_pt_lim (rit_v a) c (2 / 3).
Proof. unfold rit_v. eapply D_eq; [apply D_scal; apply D_plus; [apply D_id|apply D_const]|]. ring. Qed.

Lemma ritter_state g t0 hl dim x t : 0 < g -> 0 < hl -> 0 < t + t0 ->
  let a := sqrt (g * hl) in
  let c := clamp (- a) (2 * a) (x 0%nat / (t + t0)) in
  veq (dim + 1) (ritter_dam_break g t0 hl x t) (water_state (rit_h g a c) (vel0 (rit_v a c))).
Proof.
  intros Hg Hh HT a c k Hk.
  assert (Pa : 0 < a) by (apply sqrt_lt_R0, Rmult_lt_0_compat; assumption).
  assert (Qa : a * a = g * hl) by (apply sqrt_sqrt; left; apply Rmult_lt_0_compat; assumption).
  set (T := t + t0) in *. set (X := x 0%nat) in *.
  assert (XT : X / T * T = X) by (field; lra).
  assert (L : forall y, X / T <= y <-> X <= y * T).
  { intros y. split; intros Q.
    - rewrite <- XT. apply Rmult_le_compat_r; lra.
    - apply (Rmult_le_reg_r T); [lra|]. rewrite XT. exact Q. }
  assert (SV : forall h v, water_state h (vel0 v) k = tensor [h; h * v] k).
  { intros h v. unfold water_state, vel0, tensor. destruct k as [|[|k]]; cbn [Nat.eqb Nat.sub nth]; try reflexivity.
    rewrite Rmult_0_r. destruct k; reflexivity. }
  rewrite SV. unfold ritter_dam_break. fold a. fold X. fold T.
  destruct (Rle_dec X (- T * a)) as [A|A].
  - replace c with (- a). 2:{ symmetry. apply clamp_lo; [lra|]. apply L. nra. }
    unfold rit_h, rit_v. replace (4 / (9 * g) * (a - - a / 2) * (a - - a / 2)) with hl.
    2:{ transitivity (a * a / g); [rewrite Qa; field; lra|field; lra]. }
    replace (hl * (2 / 3 * (- a + a))) with 0 by ring. reflexivity.
  - assert (A' : - a <= X / T). { apply Rnot_lt_le. intros Q. apply A. assert (X <= - a * T) by (apply L; lra). lra. }
    destruct (Rle_dec X (2 * T * a)) as [B|B].
    + replace c with (X / T). 2:{ symmetry. apply clamp_id. split; [exact A'|]. apply L. lra. }
      unfold rit_h, rit_v. replace (X / (2 * T)) with (X / T / 2) by (field; lra). reflexivity.
    + replace c with (2 * a). 2:{ symmetry. apply clamp_hi; [lra|]. apply Rnot_lt_le. intros Q.
        apply B. assert (X <= 2 * a * T) by (apply L; lra). lra. }
      unfold rit_h. replace (4 / (9 * g) * (a - 2 * a / 2) * (a - 2 * a / 2)) with 0 by (field; lra).
      rewrite Rmult_0_l. reflexivity.
Qed.

Lemma D_quot X t t0 : 0 < t + t0 -> derivable_pt_lim (fun s => X / (s + t0)) t (- X / ((t + t0) * (t + t0))).
Proof.
  intros HT. eapply D_eq; [apply D_div; [|apply D_const|apply D_plus; [apply D_id|apply D_const]]|].
  - cbv beta. lra.
  - cbv beta. field. lra.
Qed.
Lemma D_quot_x T X : 0 < T -> derivable_pt_lim (fun y => y / T) X (1 / T).
Proof. intros HT. eapply D_eq; [apply D_div; [|apply D_id|apply D_const]|]; cbv beta; [lra|field; lra]. Qed.

Lemma C97_ritter_proof g t_initial left_depth dim : 0 < g -> 0 < left_depth -> (1 <= dim)%nat ->
  let W := fun t x => ritter_dam_break g t_initial left_depth x t in
  (forall t x, 0 < t + t_initial ->
     let T := t + t_initial in
     let a := sqrt (g * left_depth) in
     (x 0%nat <> - (a * T) -> x 0%nat <> 2 * a * T ->
        solves_shallow_water g dim (fun _ => 0) no_friction W t x) /\
     no_jump (dim + 1) W e0 t x /\
     0 <= W t x 0%nat <= left_depth /\
     (0 < W t x 0%nat <-> x 0%nat < 2 * a * T)) /\
  (forall x, x 0%nat < 0 -> exists d, 0 < d /\ forall t, 0 < t + t_initial < d ->
     veq (dim + 1) (W t x) (fun k => if Nat.eqb k 0 then left_depth else 0)) /\
  (forall x, 0 < x 0%nat -> exists d, 0 < d /\ forall t, 0 < t + t_initial < d ->
     veq (dim + 1) (W t x) (fun _ => 0)).
Proof.
  intros Hg Hh Hdim W.
  set (a := sqrt (g * left_depth)).
  assert (Pa : 0 < a) by (apply sqrt_lt_R0, Rmult_lt_0_compat; assumption).
  assert (Qa : a * a = g * left_depth) by (apply sqrt_sqrt; left; apply Rmult_lt_0_compat; assumption).
  assert (S0 : forall t x, 0 < t + t_initial -> veq (dim + 1) (W t x)
    (water_state (rit_h g a (clamp (- a) (2 * a) (x 0%nat / (t + t_initial))))
       (vel0 (rit_v a (clamp (- a) (2 * a) (x 0%nat / (t + t_initial))))))).
  { intros t x HT. apply (ritter_state g t_initial left_depth dim x t Hg Hh HT). }
  assert (H0 : rit_h g a (- a) = left_depth).
  { unfold rit_h. transitivity (a * a / g); [field; lra|rewrite Qa; field; lra]. }
  assert (H2 : rit_h g a (2 * a) = 0) by (unfold rit_h; field; lra).
  assert (V0 : rit_v a (- a) = 0) by (unfold rit_v; ring).
  assert (WS0 : forall v k, water_state 0 (vel0 v) k = 0).
  { intros v k. unfold water_state. destruct (Nat.eqb k 0); ring. }
  assert (WSl : forall k, water_state left_depth (vel0 0) k = if Nat.eqb k 0 then left_depth else 0).
  { intros k. unfold water_state, vel0. destruct (Nat.eqb k 0); [reflexivity|]. destruct (Nat.eqb _ _); ring. }
  split; [|split].
  - intros t x HT T. cbv zeta. fold a T in HT |- *.
    assert (PT : 0 < T) by exact HT.
    assert (XT : forall X, X / T * T = X) by (intros; field; lra).
    assert (LT : forall X y, X / T < y <-> X < y * T).
    { intros X y. split; intros Q; [rewrite <- (XT X); apply Rmult_lt_compat_r; lra|apply (Rmult_lt_reg_r T); [lra|rewrite XT; exact Q]]. }
    assert (GT : forall X y, y < X / T <-> y * T < X).
    { intros X y. split; intros Q; [rewrite <- (XT X); apply Rmult_lt_compat_r; lra|apply (Rmult_lt_reg_r T); [lra|rewrite XT; exact Q]]. }
    assert (NT : near t (fun s => 0 < s + t_initial)).
    { eapply near_pos; [apply D_plus; [apply D_id|apply D_const]|]. exact HT. }
    split; [|split; [|split]].
    + intros NA NB.
      assert (CS : x 0%nat / T < - a \/ - a < x 0%nat / T < 2 * a \/ 2 * a < x 0%nat / T).
      { destruct (Rtotal_order (x 0%nat / T) (- a)) as [Q|[Q|Q]]; [left; exact Q| |].
        - exfalso. apply NA. rewrite <- (XT (x 0%nat)), Q. ring.
        - right. destruct (Rtotal_order (x 0%nat / T) (2 * a)) as [Q'|[Q'|Q']]; [left; split; assumption| |right; exact Q'].
          exfalso. apply NB. rewrite <- (XT (x 0%nat)), Q'. ring. }
      destruct CS as [C|[[C1 C2]|C]].
      * apply (water_line g dim (fun _ => 0) no_friction (fun _ _ => left_depth) (fun _ _ => 0) (fun _ => 0) W t x 0 0 0 0 0);
          try apply D_const; try reflexivity; try exact Hdim; try (unfold no_friction; ring).
        -- assert (N : near t (fun s => x 0%nat / (s + t_initial) < - a)).
           { eapply near_lt; [apply D_quot; exact HT|apply D_const|]. exact C. }
           eapply near_mp; [exact (near_and _ _ _ NT N)|]. cbv beta. intros s [P Q] k Hk.
           rewrite (S0 s x P k Hk), clamp_lo, H0, V0 by lra. reflexivity.
        -- assert (N : near (x 0%nat) (fun y => y / T < - a)).
           { eapply near_lt; [apply D_quot_x; exact PT|apply D_const|]. exact C. }
           eapply near_mp; [exact N|]. cbv beta. intros y Q. split; [lra|]. intros p <- k Hk.
           rewrite (S0 t p HT k Hk). fold T. rewrite clamp_lo, H0, V0 by lra. reflexivity.
      * apply (water_line g dim (fun _ => 0) no_friction (fun s y => rit_h g a (y / (s + t_initial)))
          (fun s y => rit_v a (y / (s + t_initial))) (fun _ => 0) W t x
          (- (4 / (9 * g)) * (a - x 0%nat / T / 2) * (- x 0%nat / (T * T)))
          (- (4 / (9 * g)) * (a - x 0%nat / T / 2) * (1 / T))
          (2 / 3 * (- x 0%nat / (T * T))) (2 / 3 * (1 / T)) 0);
          try exact Hdim; try reflexivity; try (intros; unfold no_friction; ring).
        -- assert (N1 : near t (fun s => - a < x 0%nat / (s + t_initial))).
           { eapply near_lt; [apply D_const|apply D_quot; exact HT|]. exact C1. }
           assert (N2 : near t (fun s => x 0%nat / (s + t_initial) < 2 * a)).
           { eapply near_lt; [apply D_quot; exact HT|apply D_const|]. exact C2. }
           eapply near_mp; [exact (near_and _ _ _ NT (near_and _ _ _ N1 N2))|]. cbv beta. intros s (P & Q1 & Q2) k Hk.
           rewrite (S0 s x P k Hk), clamp_id by lra. reflexivity.
        -- assert (N1 : near (x 0%nat) (fun y => - a < y / T)).
           { eapply near_lt; [apply D_const|apply D_quot_x; exact PT|]. exact C1. }
           assert (N2 : near (x 0%nat) (fun y => y / T < 2 * a)).
           { eapply near_lt; [apply D_quot_x; exact PT|apply D_const|]. exact C2. }
           eapply near_mp; [exact (near_and _ _ _ N1 N2)|]. cbv beta. intros y (Q1 & Q2). fold T. split.
           { unfold rit_h. apply Rgt_not_eq, Rmult_lt_0_compat; [apply Rmult_lt_0_compat; [|lra]|lra].
             apply Rdiv_lt_0_compat; lra. }
           intros p <- k Hk. rewrite (S0 t p HT k Hk). fold T. rewrite clamp_id by lra. reflexivity.
        -- eapply D_eq; [apply (D_comp (rit_h g a) (fun s => x 0%nat / (s + t_initial))); [apply D_quot; exact HT|apply D_rit_h; exact Hg]|].
           reflexivity.
        -- eapply D_eq; [apply (D_comp (rit_v a) (fun s => x 0%nat / (s + t_initial))); [apply D_quot; exact HT|apply D_rit_v]|].
           reflexivity.
        -- eapply D_eq; [apply (D_comp (rit_h g a) (fun y => y / T)); [apply D_quot_x; exact PT|apply D_rit_h; exact Hg]|].
           reflexivity.
        -- eapply D_eq; [apply (D_comp (rit_v a) (fun y => y / T)); [apply D_quot_x; exact PT|apply D_rit_v]|].
           reflexivity.
        -- apply D_const.
        -- fold T. unfold rit_h, rit_v. field. lra.
        -- fold T. unfold rit_h, rit_v, no_friction. field. lra.
      * apply (dry_solves_near g dim (fun _ => 0) no_friction W t x (fun _ => 0)); try (intros; apply D_const); try reflexivity.
        -- assert (N : near t (fun s => 2 * a < x 0%nat / (s + t_initial))).
           { eapply near_lt; [apply D_const|apply D_quot; exact HT|]. exact C. }
           eapply near_mp; [exact (near_and _ _ _ NT N)|]. cbv beta. intros s [P Q] k Hk.
           rewrite (S0 s x P k Hk), clamp_hi, H2 by lra. apply WS0.
        -- intros j Hj. assert (N : near (x 0%nat) (fun y => 2 * a < y / T)).
           { eapply near_lt; [apply D_const|apply D_quot_x; exact PT|]. exact C. }
           eapply near_mp; [exact (near_along x j _ N)|]. cbv beta. intros s Q k Hk.
           rewrite (S0 t _ HT k Hk). fold T. rewrite clamp_hi, H2 by lra. apply WS0.
    + apply continuous_no_jump. intros k Hk.
      set (cl := fun s => clamp (- a) (2 * a) ((x 0%nat + s) / T)).
      eapply continuity_pt_locally_ext with (a := 1) (f := fun s => water_state (rit_h g a (cl s)) (vel0 (rit_v a (cl s))) k); [lra| |].
      { intros s _. rewrite (S0 _ _ HT k Hk). rewrite shift_e0. fold T. reflexivity. }
      apply (continuity_pt_comp cl (fun c => water_state (rit_h g a c) (vel0 (rit_v a c)) k)).
      * intros eps He. exists (eps * T). split; [apply Rmult_lt_0_compat; lra|].
        intros s [_ Hs]. simpl in *. unfold R_dist in *.
        eapply Rle_lt_trans; [apply clamp_lip|].
        replace ((x 0%nat + s) / T - (x 0%nat + 0) / T) with ((s - 0) * / T) by (field; lra).
        rewrite Rabs_mult, (Rabs_right (/ T)) by (left; apply Rinv_0_lt_compat; lra).
        apply (Rmult_lt_reg_r T); [lra|]. rewrite Rmult_assoc, Rinv_l by lra. lra.
      * assert (CH : forall c, continuity_pt (rit_h g a) c) by (intros; eapply D_cont; apply D_rit_h; exact Hg).
        assert (CV : forall c, continuity_pt (rit_v a) c) by (intros; eapply D_cont; apply D_rit_v).
        unfold water_state. destruct (Nat.eqb k 0); [apply CH|].
        apply (continuity_pt_mult (rit_h g a) (fun c => vel0 (rit_v a c) (k - 1)%nat)); [apply CH|].
        unfold vel0. destruct (Nat.eqb (k - 1) 0); [apply CV|apply continuity_pt_const; intros ? ?; reflexivity].
    + rewrite (S0 t x HT 0%nat) by lia. unfold water_state. cbn [Nat.eqb]. fold T.
      set (c := clamp _ _ _). pose proof (clamp_in (- a) (2 * a) (x 0%nat / T) ltac:(lra)) as B. fold c in B.
      rewrite <- H0. unfold rit_h. set (q := 4 / (9 * g)). assert (0 < q) by (apply Rdiv_lt_0_compat; lra).
      rewrite !Rmult_assoc. split; [apply Rmult_le_pos; [lra|nra]|apply Rmult_le_compat_l; [lra|nra]].
    + rewrite (S0 t x HT 0%nat) by lia. unfold water_state. cbn [Nat.eqb]. fold T. split; intros P.
      * apply Rnot_le_lt. intros Q. rewrite clamp_hi in P; [rewrite H2 in P; lra|lra|].
        apply Rnot_lt_le. intros Q'. apply LT in Q'. lra.
      * assert (Q : x 0%nat / T < 2 * a) by (apply LT; exact P).
        assert (B : clamp (- a) (2 * a) (x 0%nat / T) < 2 * a).
        { unfold clamp, Rmin, Rmax. destruct (Rle_dec (- a) _), (Rle_dec (2 * a) _); lra. }
        set (c := clamp _ _ _) in *. unfold rit_h. apply Rmult_lt_0_compat; [apply Rmult_lt_0_compat; [|lra]|lra].
        apply Rdiv_lt_0_compat; lra.
  - intros x Hx. exists (- x 0%nat / a). split; [apply Rdiv_lt_0_compat; lra|]. intros t [P Q] k Hk.
    rewrite (S0 t x P k Hk). rewrite clamp_lo, H0, V0; [apply WSl|lra|].
    apply (Rmult_le_reg_r (t + t_initial)); [lra|]. unfold Rdiv. rewrite Rmult_assoc, Rinv_l by lra.
    assert ((t + t_initial) * a < - x 0%nat / a * a) by (apply Rmult_lt_compat_r; lra).
    replace (- x 0%nat / a * a) with (- x 0%nat) in H by (field; lra). lra.
  - intros x Hx. exists (x 0%nat / (2 * a)). split; [apply Rdiv_lt_0_compat; lra|]. intros t [P Q] k Hk.
    rewrite (S0 t x P k Hk). rewrite clamp_hi, H2; [apply WS0|lra|].
    apply (Rmult_le_reg_r (t + t_initial)); [lra|]. unfold Rdiv. rewrite (Rmult_assoc (x 0%nat)), Rinv_l by lra.
    assert ((t + t_initial) * (2 * a) < x 0%nat / (2 * a) * (2 * a)) by (apply Rmult_lt_compat_r; lra).
    replace (x 0%nat / (2 * a) * (2 * a)) with (x 0%nat) in H by (field; lra). lra.
Qed.
