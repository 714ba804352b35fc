(** * Euler limiter: what the success flag says about the returned state *)
From Coq Require Import Reals List Bool Arith Lia Lra Psatz.
From Verif Require Import RVec Newton NewtonProofs EulerSystem EulerLimiter EulerLimiterSpec
  EulerLimiterProofs EulerLimiterEntropy EulerLimiterBounds EulerLimiterFinal.
From Verif Require Import LimiterVerdictSpec.
Import ListNotations.
Local Open Scope R_scope.

Lemma newton_loop_failed s eps tol dim fuel : forall first it it' b,
  newton_loop s eps tol dim fuel first false it = (it', b) -> b = false.
Proof.
  induction fuel as [|fuel IH]; intros first it it' b E; simpl in E.
  - inversion E; reflexivity.
  - destruct (all_equal _); [inversion E; reflexivity|].
    replace (if first && negb (entropy_test s eps dim (accept_right s eps dim it)) then false else false) with false in E by (destruct (_ && _); reflexivity).
    destruct (within_tolerance _ _); [inversion E; reflexivity|].
    apply IH in E. exact E.
Qed.

Lemma density_test_says s eps L : density_test s eps L = true ->
  let cutoff := reference_density s * vacuum_state_relaxation_large s * eps in
  (density (l_U L) - relax s eps * rho_max (l_bounds L) < cutoff \/ density (l_U L) - relax s eps * rho_max (l_bounds L) <= 0) /\
  (rho_min (l_bounds L) - relax s eps * density (l_U L) < cutoff \/ rho_min (l_bounds L) - relax s eps * density (l_U L) <= 0).
Proof.
  unfold density_test, filter_vacuum_density. cbv zeta. intros H. apply andb_prop in H. destruct H as [A B].
  set (x := density (l_U L) - relax s eps * rho_max (l_bounds L)) in *. set (y := rho_min (l_bounds L) - relax s eps * density (l_U L)) in *.
  set (c := reference_density s * vacuum_state_relaxation_large s * eps) in *. clearbody x y c.
  assert (F : forall z, (if Req_EM_T (if Rlt_dec (Rabs (Rmax 0 z)) c then 0 else Rmax 0 z) 0 then true else false) = true -> z < c \/ z <= 0).
  { intros z. assert (M := Rmax_r 0 z). assert (M' := Rle_abs (Rmax 0 z)). destruct (Rlt_dec (Rabs (Rmax 0 z)) c) as [Y|Y]; [intros _; left; lra|].
    destruct (Req_EM_T (Rmax 0 z) 0) as [Z|]; [intros _; right; lra|discriminate]. }
  split; apply F; assumption.
Qed.

(** An end point that was accepted stays. *)
Definition frozen (s : euler) (dim : nat) (x : lane * (R * R)) : Prop :=
  let '(L, (tl, tr)) := x in tl = tr /\ 0 <= psi s 0 dim L tl.
Lemma acc_frozen s dim x : frozen s dim x -> frozen s dim (acc1 s 0 dim x).
Proof. destruct x as [L [tl tr]]. intros [-> H]. simpl. unfold mask_gt. destruct (Rgt_dec _ _); split; auto. Qed.
Lemma newt_frozen s dim x : frozen s dim x -> frozen s dim (newt1 s 0 dim x).
Proof.
  destruct x as [L [tl tr]]. intros [E H]. subst tr. unfold newt1.
  destruct (quadratic_newton_step 0 (-1) tl tl (psi s 0 dim L tl) (psi s 0 dim L tl) (dpsi s dim L tl) (dpsi s dim L tl)) as [q1 q2] eqn:E.
  assert (N : tl <= q1 /\ q1 <= q2 /\ q2 <= tl) by (eapply newton_shrinks; [|exact E]; lra).
  unfold frozen. replace q1 with tl by lra. split; [lra|exact H].
Qed.

Lemma limit_density_closed L :
  0 < rho_max (l_bounds L) -> l_tmin L = 0 -> 0 <= l_tmax L ->
  rho_min (l_bounds L) <= density (l_U L) <= rho_max (l_bounds L) ->
  limit_density 0 L = 0 -> forall t, 0 < t <= l_tmax L -> ~ density_within (l_bounds L) (updated L t).
Proof.
  intros Hr Hmin H0 HU E t Ht [W1 W2]. unfold updated in W1, W2.
  change (l_U L 0%nat) with (density (l_U L)) in *. change (l_P L 0%nat) with (density (l_P L)) in *.
  unfold limit_density, mask_lt in E. rewrite Hmin in E.
  set (u := density (l_U L)) in *. set (p := density (l_P L)) in *.
  set (rmin := rho_min (l_bounds L)) in *. set (rmax := rho_max (l_bounds L)) in *. set (tmax := l_tmax L) in *.
  assert (G : forall x, t <= x -> Rmax (Rmin x tmax) 0 <> 0).
  { intros x Hx. assert (t <= Rmin x tmax) by (apply Rmin_glb; lra). rewrite Rmax_left; lra. }
  destruct (Rlt_dec rmax (u + tmax * p)) as [C1|C1].
  - assert (Hp : 0 < p) by nra. rewrite (Rabs_right p) in E by lra.
    replace ((rmax - u) * (1 / (p + 0 * rmax))) with ((rmax - u) / p) in E by (field; lra).
    assert (Q : t <= (rmax - u) / p).
    { apply Rmult_le_reg_r with p; [lra|]. replace ((rmax - u) / p * p) with (rmax - u) by (field; lra). lra. }
    assert (V : u + (rmax - u) / p * p = rmax) by (field; lra).
    rewrite V in E. destruct (Rlt_dec rmax rmin); [lra|]. apply (G _ Q E).
  - destruct (Rlt_dec (u + tmax * p) rmin) as [C2|C2].
    + assert (Hp : p < 0) by nra. rewrite (Rabs_left p) in E by lra.
      replace ((u - rmin) * (1 / (- p + 0 * rmax))) with ((u - rmin) / - p) in E by (field; lra).
      assert (Q : t <= (u - rmin) / - p).
      { apply Rmult_le_reg_r with (- p); [lra|]. replace ((u - rmin) / - p * - p) with (u - rmin) by (field; lra). lra. }
      apply (G _ Q E).
    + apply (G tmax ltac:(lra) E).
Qed.

Lemma exact_density s L : density_test s 0 L = true -> density_within (l_bounds L) (l_U L).
Proof.
  intros T. apply density_test_says in T. cbv zeta in T. unfold relax in T. rewrite !Rmult_0_r in T.
  unfold density_within. change (l_U L 0%nat) with (density (l_U L)). lra.
Qed.

Lemma C113_euler_verdict_proof : forall s tol n dim lanes ts,
  1 < gamma s -> Forall plain_call lanes ->
  limit s 0 tol (S n) dim lanes = (ts, true) -> Forall2 (verdict s dim) lanes ts.
Proof.
  intros s tol n dim lanes ts Hg HC E.
  assert (T : forallb (density_test s 0) lanes = true).
  { destruct (forallb (density_test s 0) lanes) eqn:T; [reflexivity|]. exfalso. unfold limit in E. rewrite T in E.
    destruct (newton_loop _ _ _ _ _ _ _ _) as [it b] eqn:El. apply newton_loop_failed in El. subst b. discriminate E. }
  assert (DC : Forall density_call lanes).
  { rewrite Forall_forall in *. rewrite forallb_forall in T. intros L HL. destruct (HC L HL) as (A & B & C & D & F).
    assert (W := exact_density s L (T L HL)). split; [lra|]. split; [exact B|]. split; [exact D|]. split; [exact W|].
    rewrite A. unfold updated, density_within in *. rewrite Rmult_0_l, Rplus_0_r. exact W. }
  assert (DW := C25_density_bounds_proof s 0 tol (S n) dim lanes ts true (Rle_refl 0) DC E).
  assert (EN : Forall2 (fun L t => 0 <= psi s 0 dim L t \/ t = l_tmin L /\ limit_density 0 L = l_tmin L) lanes ts).
  { unfold limit in E. rewrite T in E.
    set (start := map (fun L0 => (L0, (l_tmin L0, limit_density 0 L0))) lanes) in *. simpl in E.
    set (it1 := accept_right s 0 dim start) in *.
    assert (I1 : it1 = map (fun L => (L, (mask_gt (psi s 0 dim L (limit_density 0 L)) 0 (limit_density 0 L) (l_tmin L), limit_density 0 L))) lanes).
    { unfold it1, accept_right, start. rewrite map_map. reflexivity. }
    destruct (all_equal it1) eqn:Q.
    - injection E as <-. rewrite I1 in Q |- *. rewrite map_map. cbn [fst snd]. clear - Q. unfold all_equal in Q.
      rewrite forallb_map in Q || idtac. revert Q. induction lanes as [|L l IH]; intros Q; [constructor|]. simpl in Q.
      destruct (Req_EM_T _ _) as [Z|]; [|discriminate]. simpl in Q. constructor; [|apply IH; exact Q].
      unfold mask_gt in *. destruct (Rgt_dec _ _) as [G|G]; [left; lra|]. right. split; [reflexivity|symmetry; exact Z].
    - destruct (entropy_test s 0 dim it1) eqn:ET; simpl in E.
      2:{ exfalso. destruct (within_tolerance tol it1); [discriminate|].
          destruct (newton_loop _ _ _ _ _ _ _ _) as [it b] eqn:El. apply newton_loop_failed in El. subst b. discriminate E. }
      set (Inv := fun x => einv s dim x \/ frozen s dim x). set (Inv' := fun x => einv' s dim x \/ frozen s dim x).
      assert (Ha : forall x, Inv x -> Inv' (acc1 s 0 dim x)) by (intros x [H|H]; [left; apply acc_einv; exact H|right; apply acc_frozen; exact H]).
      assert (Hn : forall x, Inv' x -> Inv (newt1 s 0 dim x)) by (intros x [H|H]; [left; apply newt_einv; [exact Hg|exact H]|right; apply newt_frozen; exact H]).
      assert (F1 : Forall Inv' it1).
      { rewrite I1 in ET |- *. apply Forall_map. rewrite Forall_forall in *. unfold entropy_test in ET. rewrite forallb_forall in ET.
        intros L HL. unfold mask_gt. destruct (HC L HL) as (A & B & C & D & F). assert (DH := density_call_hyp L (DC L HL)).
        assert (X := limit_density_range 0 L (proj1 (proj2 DH))).
        assert (Z := ET _ (in_map _ _ _ HL)). cbv beta iota in Z. unfold mask_gt in Z.
        destruct (Rgt_dec _ _) as [G|G]; [right; split; [reflexivity|lra]|]. left.
        destruct (Req_EM_T _ 0) as [Z'|]; [|discriminate]. clear Z.
        assert (LB : lower_bound s 0 L (l_tmin L) = 0) by (unfold lower_bound, relax; cbv zeta; ring). rewrite LB in Z'.
        assert (P0 : 0 <= psi s 0 dim L (l_tmin L)). { assert (M := Rmin_r 0 (psi s 0 dim L (l_tmin L) - 0)). lra. }
        split; [|right; lra]. split; [split; [exact DH|split; [exact C|split; [exact F|exact P0]]]|]. split; [lra|]. split; [lra|exact P0]. }
      assert (PS : forall x, Inv x \/ Inv' x -> let '(L, (tl, _)) := x in 0 <= psi s 0 dim L tl).
      { intros [L [tl tr]] [[(_ & _ & _ & H)|[_ H]]|[[(_ & _ & _ & H) _]|[_ H]]]; exact H. }
      assert (ML : map fst it1 = lanes) by (rewrite I1, map_map; simpl; apply map_id).
      assert (FIN : exists it', Forall (fun x => Inv x \/ Inv' x) it' /\ map fst it' = lanes /\ map (fun x => fst (snd x)) it' = ts).
      { destruct (within_tolerance tol it1).
        - injection E as <-. exists it1. split; [|split; [exact ML|reflexivity]]. eapply Forall_impl; [|exact F1]. intros a Ha'. right. exact Ha'.
        - destruct (newton_loop _ _ _ _ _ _ _ _) as [it b] eqn:El. injection E as <- ->.
          apply (newton_loop_inv s 0 tol dim Inv Inv' Ha Hn) in El.
          + destruct El as [E1 E2]. exists it. split; [exact E1|]. split; [|reflexivity]. rewrite E2, <- ML. unfold newton_all. rewrite map_map. apply map_ext. intros [L [tl tr]]. reflexivity.
          + unfold newton_all. apply Forall_map. eapply Forall_impl; [|exact F1]. intros [L [tl tr]] H. apply (Hn (L, (tl, tr)) H). }
      destruct FIN as (it' & A & <- & <-). clear - A PS. induction A as [|[L [tl tr]] l H A IH]; simpl; constructor; [|exact IH].
      left. exact (PS _ H). }
  clear E T. revert DW EN. revert ts. induction DC as [|L l H DC IH]; intros ts DW EN; inversion DW as [|? t ? ts' W DW']; subst; constructor.
  - inversion EN as [|? ? ? ? N EN']; subst. inversion HC as [|? ? (A & B & C & D & F) HC']; subst. split; [exact W|].
    assert (P : 0 < density (along L t)). { unfold density_within in W. change (updated L t 0%nat) with (density (along L t)) in W. lra. }
    destruct N as [N|[N1 N2]].
    + left. apply psi_entropy; assumption.
    + right. split; [exact N1|]. intros t' Ht'. rewrite A in *. destruct H as (_ & _ & _ & HU & _). apply limit_density_closed; try assumption.
  - inversion EN; subst. inversion HC; subst. apply IH; assumption.
Qed.

Lemma C113_euler_density_proof : forall s eps tol n dim lanes ts L,
  limit s eps tol n dim lanes = (ts, true) -> In L lanes ->
  0 <= eps -> 0 <= reference_density s -> 0 <= vacuum_state_relaxation_large s ->
  let large := vacuum_state_relaxation_large s * eps in
  l_U L 0%nat <= (1 + large) * rho_max (l_bounds L) + reference_density s * large /\
  rho_min (l_bounds L) <= (1 + large) * l_U L 0%nat + reference_density s * large.
Proof.
  intros s eps tol n dim lanes ts L E HL He Hr Hl. cbv zeta.
  assert (T : forallb (density_test s eps) lanes = true).
  { destruct (forallb (density_test s eps) lanes) eqn:T; [reflexivity|]. exfalso. unfold limit in E. rewrite T in E.
    destruct (newton_loop _ _ _ _ _ _ _ _) as [it b] eqn:El. apply newton_loop_failed in El. subst b. discriminate E. }
  rewrite forallb_forall in T. destruct (density_test_says _ _ _ (T L HL)) as [A B]. unfold relax in A, B.
  change (l_U L 0%nat) with (density (l_U L)).
  assert (0 <= reference_density s * (vacuum_state_relaxation_large s * eps)) by (repeat apply Rmult_le_pos; assumption).
  rewrite <- Rmult_assoc. rewrite <- Rmult_assoc in H. split; lra.
Qed.

(** A state at the upper density bound with one tenth of the entropy required; the update would raise the density. *)
Definition closed_lane : lane :=
  {| l_bounds := {| rho_min := 1; rho_max := 2; s_min := 10 |}; l_U := mkstate 1 2 (fun _ => 0) 4; l_P := mkstate 1 1 (fun _ => 0) 0; l_tmin := 0; l_tmax := 1 |}.
Lemma C113_euler_closed_refuted_proof : forall eps tol n, 0 <= eps <= 1 / 1000000 ->
  let s := ex_euler in exists L,
  plain_call L /\ density_within (l_bounds L) (l_U L) /\ specific_entropy s 1 (l_U L) = s_min (l_bounds L) / 10 /\
  limit s eps tol (S n) 1 [L] = ([0], true).
Proof.
  intros eps tol n He. cbv zeta. exists closed_lane.
  split; [unfold plain_call; cbn; repeat split; lra|]. split; [unfold density_within; cbn; lra|].
  split. { unfold specific_entropy, internal_energy, norm2, dot, total_energy, density, momentum, closed_lane, mkstate. simpl.
    replace (1 / 2) with (/ 2) by field. rewrite powr_2 by lra. field. }
  assert (LD : limit_density eps closed_lane = 0).
  { unfold limit_density, mask_lt, density, closed_lane, mkstate. simpl. rewrite (Rabs_right 1) by lra.
    destruct (Rlt_dec 2 (2 + 1 * 1)); [|lra]. replace ((2 - 2) * (1 / (1 + eps * 2))) with 0 by (field; lra).
    destruct (Rlt_dec (2 + 0 * 1) 1); [lra|]. rewrite Rmin_left by lra. apply Rmax_left. lra. }
  assert (PS : psi ex_euler eps 1 closed_lane 0 < 0).
  { unfold psi, relax_small, internal_energy, norm2, dot, total_energy, density, momentum, along, vadd, vscal, closed_lane, mkstate. simpl.
    replace (2 + 0 * 1) with 2 by ring. rewrite powr_2 by lra. replace (4 + 0 * 0) with 4 by ring. lra. }
  unfold limit. cbn [forallb map]. rewrite LD.
  assert (DT : density_test ex_euler eps closed_lane = true).
  { apply density_test_ok; cbn; lra. }
  rewrite DT. cbn [andb]. change (l_tmin closed_lane) with 0. cbn [newton_loop accept_right map]. unfold mask_gt.
  destruct (Rgt_dec _ _); [lra|]. cbn [all_equal forallb]. destruct (Req_EM_T 0 0); [reflexivity|lra].
Qed.

(** A call that passes. *)
Lemma verdict_example : exists ts, limit ex_euler 0 (1 / 1000) 2 1 [ex_lane] = (ts, true).
Proof.
  destruct (limit ex_euler 0 (1 / 1000) 2 1 [ex_lane]) as [ts b] eqn:E. exists ts.
  assert (b = true) by (eapply C26_success_reported_proof; [|exact E]; constructor; [exact ex_entropy_call|constructor]). subst b. reflexivity.
Qed.
