(** * EulerAEOS limiter: what the success flag says about the returned state *)
From Coq Require Import Reals List Bool Arith Lia Lra Psatz.
From Verif Require Import RVec Newton NewtonProofs EulerSystem AeosSystem EulerLimiter AeosLimiter AeosLimiterSpec
  AeosLimiterProofs AeosLimiterEntropy AeosLimiterBounds AeosLimiterFinal.
From Verif Require Import LimiterVerdictSpec.
Import ListNotations.
Local Open Scope R_scope.

Lemma a_newton_loop_failed s eps tol dim fuel : forall first it it' b,
  a_newton_loop s eps tol dim fuel first false it = (it', b) -> b = false.
Proof.
  induction fuel as [|fuel IH]; intros first it it' b E; simpl in E.
  - inversion E; reflexivity.
  - destruct (a_all_equal _); [inversion E; reflexivity|].
    replace (if first && negb (a_entropy_test s eps dim (a_accept_right s eps dim it)) then false else false) with false in E by (destruct (_ && _); reflexivity).
    destruct (a_within_tolerance _ _); [inversion E; reflexivity|].
    apply IH in E. exact E.
Qed.

Lemma a_density_test_says s eps L : a_density_test s eps L = true ->
  let cutoff := a_reference_density s * a_relaxation_large s * eps in
  (a_density (al_U L) - a_relax s eps * arho_max (al_b L) < cutoff \/ a_density (al_U L) - a_relax s eps * arho_max (al_b L) <= 0) /\
  (arho_min (al_b L) - a_relax s eps * a_density (al_U L) < cutoff \/ arho_min (al_b L) - a_relax s eps * a_density (al_U L) <= 0).
Proof.
  unfold a_density_test, a_filter_vacuum_density. cbv zeta. intros H. apply andb_prop in H. destruct H as [A B].
  set (x := a_density (al_U L) - a_relax s eps * arho_max (al_b L)) in *. set (y := arho_min (al_b L) - a_relax s eps * a_density (al_U L)) in *.
  set (c := a_reference_density s * a_relaxation_large s * eps) in *. clearbody x y c.
  assert (F : forall z, (if Req_EM_T (if Rlt_dec (Rabs (Rmax 0 z)) c then 0 else Rmax 0 z) 0 then true else false) = true -> z < c \/ z <= 0).
  { intros z. assert (M := Rmax_r 0 z). assert (M' := Rle_abs (Rmax 0 z)). destruct (Rlt_dec (Rabs (Rmax 0 z)) c) as [Y|Y]; [intros _; left; lra|].
    destruct (Req_EM_T (Rmax 0 z) 0) as [Z|]; [intros _; right; lra|discriminate]. }
  split; apply F; assumption.
Qed.

(** An end point that was accepted stays. *)
Definition a_frozen (s : aeos) (dim : nat) (x : alane * (R * R)) : Prop :=
  let '(L, (tl, tr)) := x in tl = tr /\ 0 <= a_psi s 0 dim L tl.
Lemma a_acc_frozen s dim x : a_frozen s dim x -> a_frozen s dim (a_acc1 s 0 dim x).
Proof. destruct x as [L [tl tr]]. intros [-> H]. simpl. unfold mask_gt. destruct (Rgt_dec _ _); split; auto. Qed.
Lemma a_newt_frozen s dim x : a_frozen s dim x -> a_frozen s dim (a_newt1 s 0 dim x).
Proof.
  destruct x as [L [tl tr]]. intros [E H]. subst tr. unfold a_newt1.
  destruct (quadratic_newton_step 0 (-1) tl tl (a_psi s 0 dim L tl) (a_psi s 0 dim L tl) (a_dpsi s dim L tl) (a_dpsi s dim L tl)) as [q1 q2] eqn:E.
  assert (N : tl <= q1 /\ q1 <= q2 /\ q2 <= tl) by (eapply newton_shrinks; [|exact E]; lra).
  unfold a_frozen. replace q1 with tl by lra. split; [lra|exact H].
Qed.

Lemma a_limit_density_closed L :
  0 < arho_max (al_b L) -> al_tmin L = 0 -> 0 <= al_tmax L ->
  arho_min (al_b L) <= a_density (al_U L) <= arho_max (al_b L) ->
  a_limit_density 0 L = 0 -> forall t, 0 < t <= al_tmax L -> ~ a_density_within (al_b L) (a_updated L t).
Proof.
  intros Hr Hmin H0 HU E t Ht [W1 W2]. unfold a_updated in W1, W2.
  change (al_U L 0%nat) with (a_density (al_U L)) in *. change (al_P L 0%nat) with (a_density (al_P L)) in *.
  unfold a_limit_density, mask_lt in E. rewrite Hmin in E.
  set (u := a_density (al_U L)) in *. set (p := a_density (al_P L)) in *.
  set (rmin := arho_min (al_b L)) in *. set (rmax := arho_max (al_b L)) in *. set (tmax := al_tmax L) in *.
  assert (G : forall x, t <= x -> Rmax (Rmin x tmax) 0 <> 0).
  { intros x Hx. assert (t <= Rmin x tmax) by (apply Rmin_glb; lra). rewrite Rmax_left; lra. }
  destruct (Rlt_dec rmax (u + tmax * p)) as [C1|C1].
  - assert (Hp : 0 < p) by nra. rewrite (Rabs_right p) in E by lra.
    replace ((rmax - u) * (1 / (p + 0 * rmax))) with ((rmax - u) / p) in E by (field; lra).
    assert (Q : t <= (rmax - u) / p).
    { apply Rmult_le_reg_r with p; [lra|]. replace ((rmax - u) / p * p) with (rmax - u) by (field; lra). lra. }
    assert (V : u + (rmax - u) / p * p = rmax) by (field; lra).
    rewrite V in E. destruct (Rlt_dec rmax rmin); [lra|]. apply (G _ Q E).
  - destruct (Rlt_dec (u + tmax * p) rmin) as [C2|C2].
    + assert (Hp : p < 0) by nra. rewrite (Rabs_left p) in E by lra.
      replace ((u - rmin) * (1 / (- p + 0 * rmax))) with ((u - rmin) / - p) in E by (field; lra).
      assert (Q : t <= (u - rmin) / - p).
      { apply Rmult_le_reg_r with (- p); [lra|]. replace ((u - rmin) / - p * - p) with (u - rmin) by (field; lra). lra. }
      apply (G _ Q E).
    + apply (G tmax ltac:(lra) E).
Qed.

Lemma a_exact_density s L : a_density_test s 0 L = true -> a_density_within (al_b L) (al_U L).
Proof.
  intros T. apply a_density_test_says in T. cbv zeta in T. unfold a_relax in T. rewrite !Rmult_0_r in T.
  unfold a_density_within. change (al_U L 0%nat) with (a_density (al_U L)). lra.
Qed.

Lemma C113_aeos_verdict_proof : forall s tol n dim lanes ts,
  Forall (a_plain_call s) lanes ->
  a_limit s 0 tol (S n) dim lanes = (ts, true) -> Forall2 (a_verdict s dim) lanes ts.
Proof.
  intros s tol n dim lanes ts HC E.
  assert (T : forallb (a_density_test s 0) lanes = true).
  { destruct (forallb (a_density_test s 0) lanes) eqn:T; [reflexivity|]. exfalso. unfold a_limit in E. rewrite T in E.
    destruct (a_newton_loop _ _ _ _ _ _ _ _) as [it b] eqn:El. apply a_newton_loop_failed in El. subst b. discriminate E. }
  assert (DC : Forall a_density_call lanes).
  { rewrite Forall_forall in *. rewrite forallb_forall in T. intros L HL. destruct (HC L HL) as (A & B & C & D & F & G1 & G2 & G3).
    assert (W := a_exact_density s L (T L HL)). split; [lra|]. split; [exact B|]. split; [exact D|]. split; [exact W|].
    rewrite A. unfold a_updated, a_density_within in *. rewrite Rmult_0_l, Rplus_0_r. exact W. }
  assert (DW := C63_density_bounds_proof s 0 tol (S n) dim lanes ts true (Rle_refl 0) DC E).
  assert (EN : Forall2 (fun L t => 0 <= a_psi s 0 dim L t \/ t = al_tmin L /\ a_limit_density 0 L = al_tmin L) lanes ts).
  { unfold a_limit in E. rewrite T in E.
    set (start := map (fun L0 => (L0, (al_tmin L0, a_limit_density 0 L0))) lanes) in *. simpl in E.
    set (it1 := a_accept_right s 0 dim start) in *.
    assert (I1 : it1 = map (fun L => (L, (mask_gt (a_psi s 0 dim L (a_limit_density 0 L)) 0 (a_limit_density 0 L) (al_tmin L), a_limit_density 0 L))) lanes).
    { unfold it1, a_accept_right, start. rewrite map_map. reflexivity. }
    destruct (a_all_equal it1) eqn:Q.
    - injection E as <-. rewrite I1 in Q |- *. rewrite map_map. cbn [fst snd]. clear - Q. unfold a_all_equal in Q.
      rewrite forallb_map in Q || idtac. revert Q. induction lanes as [|L l IH]; intros Q; [constructor|]. simpl in Q.
      destruct (Req_EM_T _ _) as [Z|]; [|discriminate]. simpl in Q. constructor; [|apply IH; exact Q].
      unfold mask_gt in *. destruct (Rgt_dec _ _) as [G|G]; [left; lra|]. right. split; [reflexivity|symmetry; exact Z].
    - destruct (a_entropy_test s 0 dim it1) eqn:ET; simpl in E.
      2:{ exfalso. destruct (a_within_tolerance tol it1); [discriminate|].
          destruct (a_newton_loop _ _ _ _ _ _ _ _) as [it b] eqn:El. apply a_newton_loop_failed in El. subst b. discriminate E. }
      set (Inv := fun x => a_einv s dim x \/ a_frozen s dim x). set (Inv' := fun x => a_einv' s dim x \/ a_frozen s dim x).
      assert (Ha : forall x, Inv x -> Inv' (a_acc1 s 0 dim x)) by (intros x [H|H]; [left; apply a_acc_einv; exact H|right; apply a_acc_frozen; exact H]).
      assert (Hn : forall x, Inv' x -> Inv (a_newt1 s 0 dim x)) by (intros x [H|H]; [left; apply a_newt_einv; exact H|right; apply a_newt_frozen; exact H]).
      assert (F1 : Forall Inv' it1).
      { rewrite I1 in ET |- *. apply Forall_map. rewrite Forall_forall in *. unfold a_entropy_test in ET. rewrite forallb_forall in ET.
        intros L HL. unfold mask_gt. destruct (HC L HL) as (A & B & C & D & F & G1 & G2 & G3). assert (DH := a_density_call_hyp L (DC L HL)).
        assert (X := a_limit_density_range 0 L (proj1 (proj2 DH))).
        assert (Z := ET _ (in_map _ _ _ HL)). cbv beta iota in Z. unfold mask_gt in Z.
        destruct (Rgt_dec _ _) as [G|G]; [right; split; [reflexivity|lra]|]. left.
        destruct (Req_EM_T _ 0) as [Z'|]; [|discriminate]. clear Z.
        assert (LB : a_lower_bound s 0 L (al_tmin L) = 0) by (unfold a_lower_bound, a_relax; cbv zeta; ring). rewrite LB in Z'.
        assert (P0 : 0 <= a_psi s 0 dim L (al_tmin L)). { assert (M := Rmin_r 0 (a_psi s 0 dim L (al_tmin L) - 0)). lra. }
        split; [|right; lra]. split; [split; [exact DH|split; [exact C|split; [exact F|split; [exact G1|split; [exact G2|split; [exact G3|exact P0]]]]]]|]. split; [lra|]. split; [lra|exact P0]. }
      assert (PS : forall x, Inv x \/ Inv' x -> let '(L, (tl, _)) := x in 0 <= a_psi s 0 dim L tl).
      { intros [L [tl tr]] [[(_ & _ & _ & H)|[_ H]]|[[(_ & _ & _ & H) _]|[_ H]]]; exact H. }
      assert (ML : map fst it1 = lanes) by (rewrite I1, map_map; simpl; apply map_id).
      assert (FIN : exists it', Forall (fun x => Inv x \/ Inv' x) it' /\ map fst it' = lanes /\ map (fun x => fst (snd x)) it' = ts).
      { destruct (a_within_tolerance tol it1).
        - injection E as <-. exists it1. split; [|split; [exact ML|reflexivity]]. eapply Forall_impl; [|exact F1]. intros a Ha'. right. exact Ha'.
        - destruct (a_newton_loop _ _ _ _ _ _ _ _) as [it b] eqn:El. injection E as <- ->.
          apply (a_newton_loop_inv s 0 tol dim Inv Inv' Ha Hn) in El.
          + destruct El as [E1 E2]. exists it. split; [exact E1|]. split; [|reflexivity]. rewrite E2, <- ML. unfold a_newton_all. rewrite map_map. apply map_ext. intros [L [tl tr]]. reflexivity.
          + unfold a_newton_all. apply Forall_map. eapply Forall_impl; [|exact F1]. intros [L [tl tr]] H. apply (Hn (L, (tl, tr)) H). }
      destruct FIN as (it' & A & <- & <-). clear - A PS. induction A as [|[L [tl tr]] l H A IH]; simpl; constructor; [|exact IH].
      left. exact (PS _ H). }
  clear E T. revert DW EN. revert ts. induction DC as [|L l H DC IH]; intros ts DW EN; inversion DW as [|? t ? ts' W DW']; subst; constructor.
  - inversion EN as [|? ? ? ? N EN']; subst. inversion HC as [|? ? (A & B & C & D & F & G1 & G2 & G3) HC']; subst. split; [exact W|].
    assert (P : 0 < a_density (a_along L t)). { unfold a_density_within in W. change (a_updated L t 0%nat) with (a_density (a_along L t)) in W. lra. }
    destruct N as [N|[N1 N2]].
    + left. apply a_psi_entropy; [exact P| |exact N]. unfold a_density_within in W. change (a_updated L t 0%nat) with (a_density (a_along L t)) in W. nra.
    + right. split; [exact N1|]. intros t' Ht'. rewrite A in *. destruct H as (_ & _ & _ & HU & _). apply a_limit_density_closed; try assumption.
  - inversion EN; subst. inversion HC; subst. apply IH; assumption.
Qed.

Lemma C113_aeos_density_proof : forall s eps tol n dim lanes ts L,
  a_limit s eps tol n dim lanes = (ts, true) -> In L lanes ->
  0 <= eps -> 0 <= a_reference_density s -> 0 <= a_relaxation_large s ->
  let large := a_relaxation_large s * eps in
  al_U L 0%nat <= (1 + large) * arho_max (al_b L) + a_reference_density s * large /\
  arho_min (al_b L) <= (1 + large) * al_U L 0%nat + a_reference_density s * large.
Proof.
  intros s eps tol n dim lanes ts L E HL He Hr Hl. cbv zeta.
  assert (T : forallb (a_density_test s eps) lanes = true).
  { destruct (forallb (a_density_test s eps) lanes) eqn:T; [reflexivity|]. exfalso. unfold a_limit in E. rewrite T in E.
    destruct (a_newton_loop _ _ _ _ _ _ _ _) as [it b] eqn:El. apply a_newton_loop_failed in El. subst b. discriminate E. }
  rewrite forallb_forall in T. destruct (a_density_test_says _ _ _ (T L HL)) as [A B]. unfold a_relax in A, B.
  change (al_U L 0%nat) with (a_density (al_U L)).
  assert (0 <= a_reference_density s * (a_relaxation_large s * eps)) by (repeat apply Rmult_le_pos; assumption).
  rewrite <- Rmult_assoc. rewrite <- Rmult_assoc in H. split; lra.
Qed.

(** A state at the upper a_density bound with one tenth of the entropy required; the update would raise the a_density. *)
Definition a_closed_lane : alane :=
  {| al_b := {| arho_min := 1; arho_max := 2; as_min := 15 / 2; agamma_min := 2 |}; al_U := mkstate 1 2 (fun _ => 0) 4; al_P := mkstate 1 1 (fun _ => 0) 0; al_tmin := 0; al_tmax := 1 |}.
Lemma C113_aeos_closed_refuted_proof : forall eps tol n, 0 <= eps <= 1 / 1000000 ->
  let s := ex_aeos in exists L,
  a_plain_call s L /\ a_density_within (al_b L) (al_U L) /\ surrogate_specific_entropy (a_eos s) 1 (al_U L) (agamma_min (al_b L)) = as_min (al_b L) / 10 /\
  a_limit s eps tol (S n) 1 [L] = ([0], true).
Proof.
  intros eps tol n He. cbv zeta. exists a_closed_lane.
  split; [unfold a_plain_call; cbn; repeat split; lra|]. split; [unfold a_density_within; cbn; lra|].
  split. { unfold surrogate_specific_entropy, a_internal_energy, norm2, dot, a_total_energy, a_density, a_momentum, a_closed_lane, mkstate. simpl.
    rewrite powr_2 by lra. field. }
  assert (LD : a_limit_density eps a_closed_lane = 0).
  { unfold a_limit_density, mask_lt, a_density, a_closed_lane, mkstate. simpl. rewrite (Rabs_right 1) by lra.
    destruct (Rlt_dec 2 (2 + 1 * 1)); [|lra]. replace ((2 - 2) * (1 / (1 + eps * 2))) with 0 by (field; lra).
    destruct (Rlt_dec (2 + 0 * 1) 1); [lra|]. rewrite Rmin_left by lra. apply Rmax_left. lra. }
  assert (PS : a_psi ex_aeos eps 1 a_closed_lane 0 < 0).
  { unfold a_psi, a_relax_small, a_internal_energy, norm2, dot, a_total_energy, a_density, a_momentum, a_along, vadd, vscal, a_closed_lane, mkstate. simpl.
    replace (2 + 0 * 1) with 2 by ring. rewrite powr_2 by lra. replace (4 + 0 * 0) with 4 by ring.
    rewrite powr_opp by lra. replace (2 - 1) with 1 by ring. rewrite powr_1 by lra. replace (/ (1 - 1 / 8 * 2)) with (4 / 3) by field. lra. }
  unfold a_limit. cbn [forallb map]. rewrite LD.
  assert (DT : a_density_test ex_aeos eps a_closed_lane = true).
  { apply a_density_test_ok; cbn; lra. }
  rewrite DT. cbn [andb]. change (al_tmin a_closed_lane) with 0. cbn [a_newton_loop a_accept_right map]. unfold mask_gt.
  destruct (Rgt_dec _ _); [lra|]. cbn [a_all_equal forallb]. destruct (Req_EM_T 0 0); [reflexivity|lra].
Qed.

(** A call that passes. *)
Lemma a_verdict_example : exists ts, a_limit ex_aeos 0 (1 / 1000) 2 1 [ex_alane] = (ts, true).
Proof.
  destruct (a_limit ex_aeos 0 (1 / 1000) 2 1 [ex_alane]) as [ts b] eqn:E. exists ts.
  assert (b = true) by (eapply C64_success_reported_proof; [|exact E]; constructor; [exact ex_a_entropy_call|constructor]). subst b. reflexivity.
Qed.
