(** * Euler scheme: bounds of the density and of the entropy *)
From Coq Require Import Reals List Arith Bool Lia Lra Psatz FunctionalExtensionality.
From Verif Require Import RVec Simd Newton EulerSystem EulerLimiter EulerLimiterSpec EulerLimiterProofs EulerLimiterEntropy EulerLimiterBounds EulerLimiterFinal
  PhysSpec PhysLib EulerRiemann EulerRiemannSpec EulerRiemannProofs EulerRiemannFinal EulerSpeed Indicator SWScheme
  EulerScheme EulerSchemeSpec SchemeSpec SchemeProofs SchemeUpdate SchemeLimit SchemeFinal SWSchemeFinal EulerSchemeProofs.
From Verif Require Import Scheme.
Import ListNotations.
Local Open Scope R_scope.

(** ** Bounds as sets *)

Lemma mass_convex b : convex_set (mass_inside b).
Proof.
  intros u v a [A [B C]] [A' [B' C']] Ha. split; [exact A|].
  pose proof (Rmult_le_compat_l a _ _ (proj1 Ha) B). pose proof (Rmult_le_compat_l a _ _ (proj1 Ha) C).
  assert (Hb : 0 <= 1 - a) by lra.
  pose proof (Rmult_le_compat_l (1 - a) _ _ Hb B'). pose proof (Rmult_le_compat_l (1 - a) _ _ Hb C'). lra.
Qed.

Lemma powr_convex g x y a : 1 <= g -> 0 < x -> 0 < y -> 0 <= a <= 1 ->
  powr (a * x + (1 - a) * y) g <= a * powr x g + (1 - a) * powr y g.
Proof.
  intros Hg Hx Hy Ha. pose proof (mix_pos a x y Ha Hx Hy) as Hz. set (z := a * x + (1 - a) * y) in *.
  pose proof (powr_tangent g x z Hg Hx Hz) as T1. pose proof (powr_tangent g y z Hg Hy Hz) as T2.
  set (k := g * powr z (g - 1)) in *.
  pose proof (Rmult_le_compat_l a _ _ (proj1 Ha) T1). assert (Hb : 0 <= 1 - a) by lra.
  pose proof (Rmult_le_compat_l (1 - a) _ _ Hb T2).
  assert (a * (powr z g + k * (x - z)) + (1 - a) * (powr z g + k * (y - z)) = powr z g) by (unfold z; ring). lra.
Qed.

Lemma entropy_inside_eq s dim b u : entropy_inside s dim b u <->
  mass_inside b u /\ 0 < s_min b /\ s_min b * powr (density u) (gamma s) <= internal_energy dim u.
Proof.
  unfold entropy_inside, internal_energy, density, total_energy, norm2, dot, momentum.
  assert (E : mass_inside b u -> u (Datatypes.S dim) - lsum (fun k => u (Datatypes.S k) * u (Datatypes.S k)) (seq 0 dim) / (2 * u 0%nat)
     = u (Datatypes.S dim) - 1 / 2 * rsum dim (fun k => u (Datatypes.S k) * u (Datatypes.S k)) * (1 / u 0%nat)).
  { intros [A B]. rewrite lsum_seq. field. lra. }
  split; intros (A & B & C); rewrite (E A) in *; auto.
Qed.

Lemma entropy_positive s dim b u : entropy_inside s dim b u -> positive_gas dim u.
Proof.
  intros H. apply entropy_inside_eq in H. destruct H as ([A [B C]] & D & E). apply positive_gas_eq.
  assert (P : 0 < density u) by (unfold density; lra). split; [exact P|].
  pose proof (powr_gt0 (density u) (gamma s) P) as Q. pose proof (Rmult_lt_0_compat _ _ D Q). lra.
Qed.

Lemma entropy_convex s dim b : 1 <= gamma s -> convex_set (entropy_inside s dim b).
Proof.
  intros Hg u v a Hu Hv Ha. apply entropy_inside_eq in Hu. apply entropy_inside_eq in Hv. apply entropy_inside_eq.
  destruct Hu as (A1 & A2 & A3), Hv as (B1 & B2 & B3).
  split; [apply mass_convex; assumption|]. split; [exact A2|].
  assert (Pu : 0 < density u) by (unfold density; destruct A1 as [? [? ?]]; lra).
  assert (Pv : 0 < density v) by (unfold density; destruct B1 as [? [? ?]]; lra).
  eapply Rle_trans; [|apply energy_concave; assumption].
  eapply Rle_trans; [apply Rmult_le_compat_l; [lra|]; apply (powr_convex (gamma s) (density u) (density v) a Hg Pu Pv Ha)|].
  pose proof (Rmult_le_compat_l a _ _ (proj1 Ha) A3). assert (Hb : 0 <= 1 - a) by lra.
  pose proof (Rmult_le_compat_l (1 - a) _ _ Hb B3). lra.
Qed.

(** Between two points of a line. *)
Lemma convex_line (X : state nat -> Prop) u P l q : convex_set X -> X u -> X (fun k => u k + l * P k) ->
  0 <= q <= l -> X (fun k => u k + q * P k).
Proof.
  intros HX Hu Hl Hq. destruct (Req_dec l 0) as [->|Hne].
  - replace q with 0 by lra. replace (fun k => u k + 0 * P k) with u; [exact Hu|].
    apply functional_extensionality. intros k. ring.
  - assert (Hr : 0 <= q / l <= 1).
    { assert (Hi : 0 < / l) by (apply Rinv_0_lt_compat; lra). split; [apply Rmult_le_pos; lra|].
      apply Rmult_le_reg_r with l; [lra|]. unfold Rdiv. rewrite Rmult_assoc, Rinv_l by lra. lra. }
    pose proof (HX _ _ (q / l) Hl Hu Hr) as Q.
    match goal with |- X ?g => match type of Q with X ?h => replace g with h; [exact Q|] end end.
    apply functional_extensionality. intros k. field. exact Hne.
Qed.

(** ** One call of the limiter *)

Section Call.
Variables (p : eparameters) (dim : nat) (b : ebounds) (u P : vec).
Definition call_lane : lane := {| l_bounds := b; l_U := u; l_P := P; l_tmin := 0; l_tmax := 1 |}.
Local Notation L := call_lane.

Lemma call_density_hyp : mass_inside b u -> density_hyp L.
Proof.
  intros [A [B C]]. unfold density_hyp, call_lane, along, vadd, vscal, density. cbn [l_tmin l_tmax l_bounds l_U l_P]. repeat split; lra.
Qed.

Lemma call_result : mass_inside b u -> 0 <= ep_eps p ->
  let l := fst (euler_limit p dim b u P) in
  0 <= l <= 1 /\ mass_inside b (fun k => u k + l * P k).
Proof.
  intros H He l. pose proof (call_density_hyp H) as D.
  assert (El : l = hd 0 (fst (limit (ep_system p) (ep_eps p) (ep_tol p) (ep_iterations p) dim [L]))) by reflexivity.
  destruct (limit (ep_system p) (ep_eps p) (ep_tol p) (ep_iterations p) dim [L]) as [ts ok] eqn:E.
  assert (T : Forall (fun L => l_tmin L <= l_tmax L) [L]) by (constructor; [cbn; lra|constructor]).
  pose proof (limit_in_range _ _ _ _ _ _ _ _ T E) as R1.
  pose proof (limit_density_ok _ _ _ _ _ _ _ _ He ltac:(constructor; [exact D|constructor]) E) as R2.
  inversion R1 as [|x t l1 l2 Hr Hn]; subst. inversion Hn; subst.
  inversion R2 as [|x' t' l1' l2' Hr' Hn']; subst. cbn [fst hd] in El. rewrite El. cbn in Hr.
  split; [exact Hr|]. split; [apply H|]. exact Hr'.
Qed.

Lemma euler_mass_call : mass_inside b u -> 0 <= ep_eps p ->
  let l := fst (euler_limit p dim b u P) in
  0 <= l <= 1 /\ forall q, 0 <= q <= l -> mass_inside b (fun k => u k + q * P k).
Proof.
  intros H He l. destruct (call_result H He) as [A B]. fold l in A, B. split; [exact A|].
  intros q Hq. apply (convex_line (mass_inside b) u P l q); auto. apply mass_convex.
Qed.

Hypothesis Heps : ep_eps p = 0.
Hypothesis Hg : 1 < gamma (ep_system p).

Lemma call_psi t : 0 < density (along L t) ->
  (0 <= psi (ep_system p) 0 dim L t <-> s_min b * powr (density (along L t)) (gamma (ep_system p)) <= internal_energy dim (along L t)).
Proof.
  intros Hr. unfold psi, relax_small. cbv zeta. cbn [l_bounds call_lane].
  set (r := density (along L t)) in *. set (e := internal_energy dim (along L t)). set (k := powr r _).
  replace ((1 + vacuum_state_relaxation_small (ep_system p) * 0) * r * e - s_min b * r * k) with (r * (e - s_min b * k)) by ring.
  split; intros H.
  - assert (0 <= e - s_min b * k); [|lra]. apply Rmult_le_reg_l with r; [exact Hr|]. lra.
  - apply Rmult_le_pos; lra.
Qed.

Lemma euler_entropy_call : entropy_inside (ep_system p) dim b u ->
  let l := fst (euler_limit p dim b u P) in
  0 <= l <= 1 /\ forall q, 0 <= q <= l -> entropy_inside (ep_system p) dim b (fun k => u k + q * P k).
Proof.
  intros H l. assert (HM : mass_inside b u) by apply H.
  destruct (call_result HM) as [A B]; [lra|]. fold l in A, B. split; [exact A|].
  assert (Q : entropy_inside (ep_system p) dim b (fun k => u k + l * P k)).
  { pose proof H as H'. apply entropy_inside_eq in H'. destruct H' as (_ & H2 & H3). apply entropy_inside_eq.
    split; [exact B|]. split; [exact H2|].
    pose proof (call_density_hyp HM) as D.
    assert (A0 : along L 0 = u).
    { apply functional_extensionality. intros k. unfold along, vadd, vscal, call_lane. cbn. ring. }
    assert (EH : entropy_hyp (ep_system p) dim L).
    { split; [exact D|]. split; [apply HM|]. split; [cbn [l_bounds call_lane]; lra|]. change (l_tmin L) with 0.
      apply call_psi; rewrite A0; [destruct HM as [? [? ?]]; unfold density; lra|exact H3]. }
    assert (El : l = hd 0 (fst (limit (ep_system p) 0 (ep_tol p) (ep_iterations p) dim [L])))
      by (unfold l, euler_limit; rewrite Heps; reflexivity).
    destruct (limit (ep_system p) 0 (ep_tol p) (ep_iterations p) dim [L]) as [ts ok] eqn:E.
    pose proof (limit_entropy_psi _ _ _ _ _ _ _ Hg ltac:(constructor; [exact EH|constructor]) E) as R2.
    inversion R2 as [|x' t' l1' l2' Hr' Hn']; subst. cbn [fst hd] in El. rewrite <- El in Hr'.
    apply call_psi in Hr'; [exact Hr'|]. destruct B as [? [? ?]]. unfold density, along, vadd, vscal, call_lane in *. cbn in *. lra. }
  intros q Hq. apply (convex_line (entropy_inside (ep_system p) dim b) u P l q); auto. apply entropy_convex. lra.
Qed.

(** A call that reports no violation, for a state that may violate the entropy bound. *)
Lemma euler_unflagged_call : mass_inside b u -> positive_gas dim u -> 0 < s_min b ->
  snd (euler_limit p dim b u P) = true ->
  let l := fst (euler_limit p dim b u P) in
  0 <= l <= 1 /\ forall q, 0 <= q <= l -> positive_gas dim (fun k => u k + q * P k).
Proof.
  intros HM HP Hs Hok l. destruct (call_result HM) as [A B]; [lra|]. fold l in A, B. split; [exact A|].
  assert (Pr : 0 < density u) by (destruct HM as [? [? ?]]; unfold density; lra).
  assert (Q : positive_gas dim (fun k => u k + l * P k)).
  { assert (EL : euler_limit p dim b u P = (hd 0 (fst (limit (ep_system p) 0 (ep_tol p) (ep_iterations p) dim [L])),
                  snd (limit (ep_system p) 0 (ep_tol p) (ep_iterations p) dim [L])))
      by (unfold euler_limit; rewrite Heps; reflexivity).
    unfold l in *. clear l. rewrite EL in *. cbn [fst snd] in *.
    assert (A0 : along L 0 = u).
    { apply functional_extensionality. intros k. unfold along, vadd, vscal, call_lane. cbn. ring. }
    destruct (Rle_dec 0 (psi (ep_system p) 0 dim L 0)) as [Hpsi|Hpsi].
    - assert (H : entropy_inside (ep_system p) dim b u).
      { apply entropy_inside_eq. split; [exact HM|]. split; [exact Hs|].
        rewrite <- A0. apply call_psi; [rewrite A0; exact Pr|exact Hpsi]. }
      destruct (euler_entropy_call H) as [_ C]. rewrite EL in C. cbn [fst] in C.
      apply (entropy_positive (ep_system p) dim b). apply C. lra.
    - unfold limit in A, B, Hok |- *. cbn [map forallb] in A, B, Hok |- *. rewrite andb_true_r in A, B, Hok |- *.
      change (l_tmin L) with 0 in *. set (tr := limit_density 0 L) in *. set (ok := density_test (ep_system p) 0 L) in *.
      assert (Z : positive_gas dim (fun k => u k + 0 * P k)).
      { replace (fun k => u k + 0 * P k) with u by (apply functional_extensionality; intros; ring). exact HP. }
      destruct (ep_iterations p) as [|fuel]; [exact Z|].
      cbn [newton_loop accept_right map] in A, B, Hok |- *. unfold mask_gt in *.
      destruct (Rgt_dec (psi (ep_system p) 0 dim L tr) 0) as [G|G].
      + (* accepted at the right end *)
        cbn [all_equal forallb] in A, B, Hok |- *. destruct (Req_EM_T tr tr); [|contradiction].
        cbn [andb map fst snd hd] in A, B, Hok |- *. apply positive_gas_eq. split; [destruct B as [? [? ?]]; unfold density; lra|].
        assert (Hd : 0 < density (along L tr)).
        { destruct B as [? [? ?]]. unfold density, along, vadd, vscal, call_lane in *. cbn in *. lra. }
        pose proof (proj1 (call_psi tr Hd) ltac:(lra)) as C.
        change (fun k => u k + tr * P k) with (along L tr).
        pose proof (powr_gt0 (density (along L tr)) (gamma (ep_system p)) Hd) as K.
        pose proof (Rmult_lt_0_compat _ _ Hs K). lra.
      + cbn [all_equal forallb] in A, B, Hok |- *. destruct (Req_EM_T 0 tr) as [E0|E0].
        * cbn [andb map fst snd hd] in A, B, Hok |- *. exact Z.
        * exfalso. cbn [andb] in Hok.
          assert (ET : entropy_test (ep_system p) 0 dim [(L, (0, tr))] = false).
          { unfold entropy_test. cbn [forallb]. unfold lower_bound, relax.
            replace ((1 - (1 + vacuum_state_relaxation_large (ep_system p) * 0)) * s_min (l_bounds L) * density (along L 0) * powr (density (along L 0)) (gamma (ep_system p))) with 0 by ring.
            destruct (Req_EM_T (Rmin 0 (psi (ep_system p) 0 dim L 0 - 0)) 0) as [F|F]; [|reflexivity].
            exfalso. unfold Rmin in F. destruct (Rle_dec 0 (psi (ep_system p) 0 dim L 0 - 0)); lra. }
          rewrite ET in Hok. cbn [negb andb] in Hok.
          assert (NF : forall fuel first it, snd (newton_loop (ep_system p) 0 (ep_tol p) dim fuel first false it) = false).
          { clear. induction fuel as [|fuel IH]; intros first it; [reflexivity|]. cbn [newton_loop].
            destruct (all_equal _); [reflexivity|].
            replace (if first && negb (entropy_test (ep_system p) 0 dim (accept_right (ep_system p) 0 dim it)) then false else false) with false
              by (destruct (first && _); reflexivity).
            destruct (within_tolerance _ _); [reflexivity|apply IH]. }
          destruct (within_tolerance (ep_tol p) [(L, (0, tr))]); [discriminate Hok|].
          specialize (NF fuel false (newton_all (ep_system p) 0 dim [(L, (0, tr))])).
          destruct (newton_loop _ _ _ _ _ _ _ _) as [x y]. cbn [snd] in *. congruence. }
  intros q Hq. apply (convex_line (positive_gas dim) u P l q); auto. apply positive_convex.
Qed.
End Call.
