(** * Shallow water limiter: what the success flag says about the returned state *)
From Coq Require Import Reals List Bool Arith Lia Lra Psatz.
From Verif Require Import RVec Newton NewtonProofs EulerLimiter SWSystem SWLimiter SWLimiterSpec SWLimiterProofs SWLimiterFinal.
From Verif Require Import LimiterVerdictSpec.
Import ListNotations.
Local Open Scope R_scope.

Lemma w_exact_depth s L : w_depth_test s 0 L = true -> depth_within L 0.
Proof.
  unfold w_depth_test, filter_dry_water_depth, depth_within, depth_at, w_relax, water_depth. intros H. apply andb_prop in H. destruct H as [A B].
  rewrite !Rmult_0_r, Rplus_0_r, !Rmult_1_l, Rmult_0_l, Rplus_0_r in *.
  assert (F : forall z, (if Req_EM_T (if Rlt_dec (Rabs (Rmax 0 z)) 0 then 0 else Rmax 0 z) 0 then true else false) = true -> z <= 0).
  { intros z. assert (M := Rmax_r 0 z). assert (M' := Rabs_pos (Rmax 0 z)). destruct (Rlt_dec (Rabs (Rmax 0 z)) 0) as [Y|Y]; [lra|].
    destruct (Req_EM_T (Rmax 0 z) 0) as [Z|]; [intros _; lra|discriminate]. }
  apply F in A, B. lra.
Qed.

Lemma success_depth s eps tiny tol on_kin on_v2 dim lanes ts :
  w_limit s eps tiny tol on_kin on_v2 dim lanes = (ts, true) -> forallb (w_depth_test s eps) lanes = true.
Proof.
  intros E. destruct (forallb (w_depth_test s eps) lanes) eqn:S0; [reflexivity|]. exfalso. unfold w_limit in E. rewrite S0 in E.
  destruct on_kin, on_v2; cbn [andb negb] in E;
    repeat match type of E with context [if ?c then _ else _] =>
      match c with w_all_equal _ => destruct c | negb (w_psi_test _ _ _) => destruct c end end;
    discriminate E.
Qed.

Lemma phase_frozen s tol dim L a y : 0 <= psi_v2 s 0 dim L a ->
  phase1 0 tol (psi_v2 s 0 dim) (dpsi_v2 dim) (L, (a, a)) y -> fst y = L /\ fst (snd y) = a.
Proof.
  intros H P. assert (A : acc1 (psi_v2 s 0 dim) (L, (a, a)) = (L, (a, a))) by (simpl; unfold mask_gt; destruct (Rgt_dec _ _); reflexivity).
  destruct P as [[-> _]| ->]; rewrite A; [auto|].
  destruct (newt1_point 0 (psi_v2 s 0 dim) (dpsi_v2 dim) L a) as (X & Y). rewrite Y. auto.
Qed.

(** The stage of the square velocity, started with the window (0, c). *)
Definition stage (dim : nat) (x : wlane * (R * R)) : Prop :=
  let '(L, (a, c)) := x in a = 0 /\ 0 <= c /\ 0 <= depth_at L 0 /\ 0 <= depth_at L c /\ 0 <= v2_max (wl_b L).
Definition fast_enough (s : shallow) (dim : nat) (x : wlane * (R * R)) : Prop := let '(L, (a, _)) := x in 0 <= psi_v2 s 0 dim L a.

Lemma stage_shortcut s dim it : Forall (stage dim) it -> w_all_equal (map (acc1 (psi_v2 s 0 dim)) it) = true ->
  Forall (fun x => fast_enough s dim x \/ fst (snd x) = 0) (map (acc1 (psi_v2 s 0 dim)) it).
Proof.
  intros H Q. apply Forall_forall. intros x Hx. assert (Z := all_equal_in _ _ Q Hx). apply in_map_iff in Hx. destruct Hx as ([L [a c]] & <- & Hx).
  rewrite Forall_forall in H. destruct (H _ Hx) as (-> & _). simpl in *. unfold mask_gt in *. destruct (Rgt_dec _ _); [left; lra|right; reflexivity].
Qed.

Lemma stage_tested s tol dim it ys : Forall (stage dim) it ->
  w_psi_test (psi_v2 s 0 dim) (lower_v2 s 0) (map (acc1 (psi_v2 s 0 dim)) it) = true ->
  Forall2 (phase1 0 tol (psi_v2 s 0 dim) (dpsi_v2 dim)) it ys -> Forall (fast_enough s dim) ys /\ map fst ys = map fst it.
Proof.
  intros H Q P. induction P as [|x y it ys P Ps IH]; [split; [constructor|reflexivity]|].
  inversion H as [|? ? Hx Hl]; subst. simpl in Q. unfold w_psi_test in Q. simpl in Q. destruct x as [L [a c]]. simpl in Q. apply andb_prop in Q. destruct Q as [Q1 Q2].
  destruct (IH Hl Q2) as [I1 I2]. destruct Hx as (-> & Hc & Hd0 & Hdc & HV).
  assert (LB : forall t, lower_v2 s 0 L t = 0) by (intros t; unfold lower_v2, w_relax; ring). rewrite LB in Q1.
  destruct (Req_EM_T _ 0) as [Z|]; [|discriminate]. clear Q1. assert (M := Rmin_r 0 (psi_v2 s 0 dim L (mask_gt (psi_v2 s 0 dim L c) 0 c 0) - 0)).
  unfold mask_gt in M, Z. destruct (Rgt_dec (psi_v2 s 0 dim L c) 0) as [G|G].
  - assert (X : acc1 (psi_v2 s 0 dim) (L, (0, c)) = (L, (c, c))) by (simpl; unfold mask_gt; destruct (Rgt_dec _ _); [reflexivity|lra]).
    assert (Y : acc1 (psi_v2 s 0 dim) (L, (c, c)) = (L, (c, c))) by (simpl; unfold mask_gt; destruct (Rgt_dec _ _); reflexivity).
    assert (P' : phase1 0 tol (psi_v2 s 0 dim) (dpsi_v2 dim) (L, (c, c)) y) by (unfold phase1 in *; rewrite Y; rewrite X in P; exact P).
    destruct (phase_frozen s tol dim L c y ltac:(lra) P') as [F1 F2].
    split; [constructor; [|exact I1]|simpl; rewrite F1, I2; reflexivity]. destruct y as [Ly [u v]]. simpl in *. subst. lra.
  - destruct (v2_phase s tol dim L c y Hc HV Hd0 Hdc ltac:(lra) P) as (F1 & _ & F2).
    split; [constructor; [|exact I1]|simpl; rewrite F1, I2; reflexivity]. destruct y as [Ly [u v]]. simpl in *. subst. exact F2.
Qed.

Lemma read_off (Q : wlane -> R -> Prop) xs : Forall (fun x => Q (fst x) (fst (snd x))) xs ->
  Forall2 Q (map fst xs) (map (fun x : wlane * (R * R) => fst (snd x)) xs).
Proof. induction 1; simpl; constructor; assumption. Qed.

Lemma stage_result s tol dim it ts success : Forall (stage dim) it -> 
  (let it1 := w_accept (psi_v2 s 0 dim) it in
   if w_all_equal it1 then (map (fun x : wlane * (R * R) => fst (snd x)) it1, success)
   else let success := if negb (w_psi_test (psi_v2 s 0 dim) (lower_v2 s 0) it1) then false else success in
        let it2 := if w_within_tolerance tol it1 then it1 else w_newton 0 (psi_v2 s 0 dim) (dpsi_v2 dim) it1 in
        (map (fun x : wlane * (R * R) => fst (snd x)) it2, success)) = (ts, true) ->
  Forall2 (fun L t => velocity_within dim L t \/ t = 0) (map fst it) ts.
Proof.
  intros H. cbv zeta. rewrite w_accept_map. set (it1 := map (acc1 (psi_v2 s 0 dim)) it).
  assert (V : forall L t, 0 <= psi_v2 s 0 dim L t -> velocity_within dim L t) by (intros L t X; rewrite psi_v2_spec in X; unfold velocity_within; lra).
  assert (M : map fst it1 = map fst it) by (unfold it1; rewrite map_map; apply map_ext; intros [L [a c]]; reflexivity).
  destruct (w_all_equal it1) eqn:A.
  - intros E. injection E as <- _. rewrite <- M. apply (read_off (fun L t => velocity_within dim L t \/ t = 0)). eapply Forall_impl; [|apply stage_shortcut; [exact H|exact A]].
    intros [L [a c]] [X|X]; [left; apply V; exact X|right; exact X].
  - destruct (w_psi_test (psi_v2 s 0 dim) (lower_v2 s 0) it1) eqn:T; cbn [negb]; intros E; [|discriminate E]. injection E as <- _.
    assert (P := phase_list 0 tol (psi_v2 s 0 dim) (dpsi_v2 dim) it). fold it1 in P.
    destruct (stage_tested s tol dim it _ H T P) as [X Y]. rewrite <- Y. apply (read_off (fun L t => velocity_within dim L t \/ t = 0)).
    eapply Forall_impl; [|exact X]. intros [L [a c]] Z. left. apply V. exact Z.
Qed.

Lemma C113_sw_verdict_proof : forall s tiny tol on_kin dim lanes ts,
  0 < tiny -> Forall w_plain_call lanes ->
  w_limit s 0 tiny tol on_kin true dim lanes = (ts, true) ->
  Forall2 (fun L t => depth_within L t /\ (velocity_within dim L t \/ t = 0)) lanes ts.
Proof.
  intros s tiny tol on_kin dim lanes ts Ht HC E. assert (T := success_depth _ _ _ _ _ _ _ _ _ E).
  assert (DC : Forall depth_call lanes).
  { rewrite Forall_forall in *. rewrite forallb_forall in T. intros L HL. destruct (HC L HL) as (A & B & C & D). split; [exact A|]. split; [exact B|]. split; [exact C|]. apply (w_exact_depth s), T, HL. }
  assert (DW := w_limit_depth_ok s 0 tiny tol on_kin true dim lanes ts true (Rle_refl 0) Ht DC E).
  assert (G : forall L, In L lanes -> wl_tmin L = 0 /\ 0 <= v2_max (wl_b L) /\ 0 <= w_limit_depth 0 tiny L /\ depth_call L /\ depth_within L (w_limit_depth 0 tiny L)).
  { rewrite Forall_forall in *. intros L HL. destruct (HC L HL) as (A & B & C & D). split; [exact A|]. split; [exact D|].
    assert (R1 := w_limit_depth_range 0 tiny L ltac:(lra)). split; [lra|]. split; [apply DC, HL|]. apply depth_limit_ok; [lra|exact Ht|apply DC, HL]. }
  assert (VW : Forall2 (fun L t => velocity_within dim L t \/ t = 0) lanes ts).
  { unfold w_limit in E. rewrite T in E. change (map (fun L => (L, (wl_tmin L, w_limit_depth 0 tiny L))) lanes) with (map (init1 0 tiny) lanes) in E.
    set (it := map (init1 0 tiny) lanes) in *.
    assert (M : map fst it = lanes) by (unfold it; rewrite map_map; apply map_id).
    destruct on_kin; cbn [andb negb] in E.
    - rewrite (w_accept_map (psi_kin s 0 dim)) in E.
      assert (P1 := phase_list 0 tol (psi_kin s 0 dim) (dpsi_kin dim) it).
      set (y := if w_within_tolerance tol _ then _ else _) in *. set (b := if negb (w_psi_test _ _ _) then false else true) in *.
      assert (F : Forall2 (fun x z => fst z = fst x /\ fst (snd z) <= snd (snd x) /\ wl_tmin (fst x) <= fst (snd z)) it y).
      { assert (W : Forall in_window it). { unfold it. apply Forall_map. apply Forall_forall. intros L HL. simpl. destruct (G L HL) as (A & _ & B & _). lra. }
        clear - P1 W. induction P1 as [|x z l r X Xs IH]; constructor.
        - inversion W; subst. destruct (phase1_window _ _ _ _ _ _ H1 X) as (A & B & C). destruct x as [Lx [p q]], z as [Lz [u v]]. simpl in *. subst. repeat split; lra.
        - apply IH. inversion W; assumption. }
      assert (S1 : Forall (stage dim) (w_flip y) /\ map fst (w_flip y) = lanes).
      { rewrite w_flip_map. unfold it in F. clear - F G M. clear M. assert (F' : forall l, incl l lanes -> forall y, Forall2 (fun x z => fst z = fst x /\ fst (snd z) <= snd (snd x) /\ wl_tmin (fst x) <= fst (snd z)) (map (init1 0 tiny) l) y -> Forall (stage dim) (map flip1 y) /\ map fst (map flip1 y) = l).
        { induction l as [|L l IH]; intros I y' F'; inversion F' as [|? z ? r Z Zs]; subst; [split; [constructor|reflexivity]|].
          destruct (IH ltac:(intros k K; apply I; right; exact K) r Zs) as [I1 I2]. destruct z as [Lz [u v]]. simpl in Z. destruct Z as (-> & Z1 & Z2).
          destruct (G L ltac:(apply I; left; reflexivity)) as (A & B & C & D & W). split.
          - constructor; [|exact I1]. simpl. rewrite A in *. split; [reflexivity|]. split; [lra|]. split; [apply (depth_call_0 L 0 D); apply D|]. split; [|exact B].
            apply (depth_call_0 L u D). apply (depth_between L (w_limit_depth 0 tiny L)); [apply D|exact W|lra].
          - simpl. rewrite I2. reflexivity. }
        apply F'; [intros k K; exact K|exact F]. }
      destruct S1 as [S1 S2]. rewrite <- S2. eapply stage_result; [exact S1|exact E].
    - rewrite <- M. eapply stage_result; [|exact E]. unfold it. apply Forall_map. apply Forall_forall. intros L HL. simpl. destruct (G L HL) as (A & B & C & D & W).
      split; [exact A|]. split; [exact C|]. split; [apply (depth_call_0 L 0 D); apply D|]. split; [apply depth_call_0; assumption|exact B]. }
  clear E T. revert VW. induction DW as [|L t l r D DW IH]; intros VW; constructor; inversion VW; subst; [split; assumption|].
  apply IH; try assumption; [inversion HC; assumption|inversion DC; assumption|intros K HK; apply G; right; exact HK].
Qed.

(** A state at the upper bound of the depth, three times as fast as permitted. *)
Definition w_closed_lane : wlane :=
  {| wl_b := {| h_min := 1; h_max := 2; h_small := 0; kin_max := 1; v2_max := 1 |}; wl_U := mkwater 1 2 (fun _ => 6); wl_P := mkwater 1 1 (fun _ => 0); wl_tmin := 0; wl_tmax := 1 |}.
Lemma C113_sw_closed_refuted_proof : forall eps tiny tol, 0 <= eps <= 1 / 1000000 -> 0 < tiny -> exists L,
  w_plain_call L /\ depth_within L 0 /\ norm2 1 (momentum_at L 0) = 9 * (v2_max (wl_b L) * (depth_at L 0 * depth_at L 0)) /\
  w_limit ex_shallow eps tiny tol false true 1 [L] = ([0], true).
Proof.
  intros eps tiny tol He Ht. exists w_closed_lane. split; [unfold w_plain_call; cbn; lra|]. split; [unfold depth_within, depth_at, w_closed_lane, mkwater; simpl; lra|].
  split; [unfold norm2, dot, momentum_at, depth_at, w_closed_lane, mkwater; simpl; lra|].
  assert (LD : w_limit_depth eps tiny w_closed_lane = 0).
  { unfold w_limit_depth, mask_lt, water_depth, w_closed_lane, mkwater. simpl. rewrite (Rabs_right 1) by lra.
    destruct (Rlt_dec 2 (2 + 1 * 1)); [|lra]. replace ((2 - 2) * (1 / (1 + eps * 2 + tiny))) with 0 by (field; lra).
    rewrite (Rmax_right 0 1) by lra. destruct (Rlt_dec (2 + 0 * 1) 1); [lra|]. rewrite Rmin_left by lra. apply Rmax_left. lra. }
  assert (PS : psi_v2 ex_shallow eps 1 w_closed_lane 0 < 0).
  { unfold psi_v2, w_relax_small, norm2, dot, water_depth, w_momentum, w_along, vadd, vscal, w_closed_lane, mkwater. simpl. lra. }
  assert (DT : w_depth_test ex_shallow eps w_closed_lane = true).
  { apply w_depth_test_ok; [lra|simpl; lra|simpl; lra|]. unfold depth_within, depth_at, w_closed_lane, mkwater. simpl. lra. }
  unfold w_limit. cbn [andb negb forallb map]. rewrite DT, LD. cbn [andb w_accept map]. change (wl_tmin w_closed_lane) with 0. unfold mask_gt.
  destruct (Rgt_dec _ _); [lra|]. cbn [w_all_equal forallb]. destruct (Req_EM_T 0 0); [reflexivity|lra].
Qed.

Lemma w_verdict_example : exists ts, w_limit ex_shallow 0 (1 / 1000) (1 / 1000) false true 1 [ex_wlane] = (ts, true).
Proof.
  destruct (w_limit ex_shallow 0 (1 / 1000) (1 / 1000) false true 1 [ex_wlane]) as [ts b] eqn:E. exists ts.
  assert (b = true); [|subst b; reflexivity]. eapply w_limit_success; [| | | | |exact E]; try (simpl; lra).
  constructor; [|constructor]. split; [exact ex_depth_call|]. split; [simpl; lra|]. split; [simpl; lra|]. split; [discriminate|]. intros _. apply ex_velocity. lra.
Qed.
