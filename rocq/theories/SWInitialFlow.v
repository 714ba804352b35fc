(** * Lemmas: flow over a bump, the two cases *)
From Coq Require Import Reals Arith Lia Lra Psatz List.
From Verif Require Import RVec EulerSystem EulerInitialStates BalanceSpec BalanceProofs EulerInitialProofs
  WaterProofs SWInitialStates SWInitialSpec SWInitialProofs SWInitialParaboloid SWInitialBump.
Import ListNotations.
Local Open Scope R_scope.

Lemma near_time t : 1 / 10 ^ 12 < t -> near t (fun s => 1 / 10 ^ 12 <= s).
Proof.
  intros H. eapply near_mp; [eapply (near_lt (fun _ => 1 / 10 ^ 12) (fun s => s)); [apply D_const|apply D_id|exact H]|].
  cbv beta. intros s Hs. lra.
Qed.

Lemma C101_subsonic_proof g dim : 8 <= g -> (1 <= dim)%nat ->
  let W := fun t x => flow_over_bump g true x t in
  let z := bump_bathymetry in
  let q := 442 / 100 in
  forall t x, 1 / 10 ^ 12 < t ->
    let h := W t x 0%nat in
    solves_shallow_water g dim z no_friction W t x /\
    W t x 1%nat = q /\ 0 < h /\
    h + z x + q * q / (2 * g * (h * h)) = 2 + q * q / (2 * g * (2 * 2)) /\
    q * q < g * h ^ 3 /\
    (x 0%nat <= 8 \/ 12 <= x 0%nat -> z x = 0 /\ h = 2).
Proof.
  intros Hg Hdim W z q t x Ht h.
  set (c := bump_bernoulli g true).
  assert (Ec : c = 2 + q * q / (2 * g * (2 * 2))).
  { unfold c, bump_bernoulli, bump_discharge, bump_depth. unfold q. field. lra. }
  assert (NC : forall y, noncritical g q c y).
  { intros y. pose proof (bz_bound y) as B.
    set (u := / g). assert (U : 0 < u <= 1 / 8).
    { unfold u. split; [apply Rinv_0_lt_compat; lra|]. replace (1 / 8) with (/ 8) by field. apply Rinv_le_contravar; lra. }
    assert (Ec' : c = 2 + q * q / 8 * u) by (rewrite Ec; unfold u; field; lra).
    assert (C1 : 6 / 10 + q * q / 24 * u <= cb c y).
    { unfold cb. rewrite Ec'. lra. }
    assert (Ed : cd g q = q * q / 2 * u) by (unfold cd, u; field; lra).
    unfold q in *. assert (0 < cb c y) by lra. split; [exact H|].
    rewrite Ed. set (w := 442 / 100 * (442 / 100)) in *. assert (Ew : w = 195364 / 10000) by (unfold w; field).
    set (r := 6 / 10 + w / 24 * u) in *.
    assert (R3 : r ^ 3 <= cb c y ^ 3) by (apply pow_incr; split; [unfold r; rewrite Ew; lra|exact C1]).
    assert (w / 2 * u < 4 * r ^ 3); [|lra].
    assert (6 / 10 * (6 / 10) * (6 / 10) + 3 * (6 / 10) * (6 / 10) * (w / 24 * u) <= r ^ 3).
    { unfold r. rewrite Ew. set (v := 195364 / 10000 / 24 * u). assert (0 <= v) by (unfold v; lra).
      replace ((6 / 10 + v) ^ 3) with (6 / 10 * (6 / 10) * (6 / 10) + 3 * (6 / 10) * (6 / 10) * v + (18 / 10 * (v * v) + v * v * v)) by field.
      assert (0 <= v * v) by nra. assert (0 <= v * v * v) by (apply Rmult_le_pos; assumption). lra. }
    rewrite Ew in *. lra. }
  assert (Eq : forall s p, 1 / 10 ^ 12 <= s -> W s p = tensor [croot g q c 0 (p 0%nat); q]).
  { intros s p Hs. unfold W. destruct (NC (p 0%nat)) as [N1 _].
    apply (proj1 (bump_root g true p s ltac:(lra) Hs N1)). left; reflexivity. }
  assert (Hq : 0 < q) by (unfold q; lra).
  assert (E : h = croot g q c 0 (x 0%nat)) by (unfold h; rewrite Eq by lra; reflexivity).
  destruct (croot_bernoulli g q c (x 0%nat) 0 ltac:(lra) Hq (or_introl eq_refl) (NC _)) as (P & Be & Su & _).
  rewrite <- E in P, Be, Su.
  assert (Ez : z x = bz (x 0%nat)) by apply bump_eq.
  split; [|split; [|split; [|split; [|split]]]].
  - refine (bump_solves g q c 0 dim W t x _ Hq Hdim (or_introl eq_refl) (NC _) _ _); [lra| |].
    + eapply near_mp; [apply near_time; exact Ht|]. cbv beta. intros s Hs. apply Eq. exact Hs.
    + apply near_all. intros y p Hp. rewrite Eq by lra. rewrite Hp. reflexivity.
  - rewrite Eq by lra. reflexivity.
  - exact P.
  - rewrite Ez, Be, Ec. reflexivity.
  - apply Su. reflexivity.
  - intros O. assert (Z0 : bz (x 0%nat) = 0) by (apply bz_out; exact O). split; [rewrite Ez; exact Z0|].
    apply (subcritical_unique g q 0 c h 2 ltac:(lra) P ltac:(lra) (Su eq_refl)).
    + unfold q. simpl. lra.
    + rewrite Z0 in Be. exact Be.
    + rewrite Ec. ring.
Qed.

Lemma bump_const g p t y0 : 1 / 10 ^ 12 <= t -> 117 / 10 < p 0%nat -> y0 = 28205279813802181 / 10 ^ 17 ->
  flow_over_bump g false p t = tensor [y0; 18 / 100].
Proof.
  intros Ht Hp ->. unfold flow_over_bump. destruct (Rlt_dec t (1 / 10 ^ 12)); [lra|].
  destruct (Rle_dec 10 (p 0%nat)); [|lra]. destruct (Rlt_dec (p 0%nat) (117 / 10)); [lra|].
  destruct (Rlt_dec (117 / 10) (p 0%nat)); [|lra]. reflexivity.
Qed.

Lemma const_residual g dim h q (W : field) t x : (1 <= dim)%nat -> 0 < h ->
  near t (fun s => W s x = tensor [h; q]) ->
  near (x 0%nat) (fun y => forall p, p 0%nat = y -> W t p = tensor [h; q]) ->
  solves_shallow_water g dim (fun _ => 0) no_friction W t x.
Proof.
  intros Hdim Hh Nt Nx.
  assert (SV : veq (dim + 1) (tensor [h; q]) (water_state h (vel0 (q / h)))).
  { intros k Hk. unfold tensor, water_state, vel0. destruct k as [|[|k]]; cbn [nth Nat.eqb Nat.sub]; [reflexivity|field; lra|].
    rewrite Rmult_0_r. destruct k; reflexivity. }
  apply (water_line g dim _ _ (fun _ _ => h) (fun _ _ => q / h) (fun _ => 0) W t x 0 0 0 0 0 Hdim); try apply D_const; try reflexivity; try ring.
  - eapply near_mp; [exact Nt|]. cbv beta. intros s ->. exact SV.
  - eapply near_mp; [exact Nx|]. cbv beta. intros s E. split; [lra|]. intros p Hp. rewrite (E p Hp). exact SV.
  - unfold no_friction. ring.
Qed.

Lemma C101_transcritical_proof g dim : 0 < g -> (1 <= dim)%nat ->
  let W := fun t x => flow_over_bump g false x t in
  let z := bump_bathymetry in
  let q := 18 / 100 in
  exists hc, 0 < hc /\ g * hc ^ 3 = q * q /\
  forall t x, 1 / 10 ^ 12 < t ->
    let h := W t x 0%nat in
    W t x 1%nat = q /\
    (x 0%nat < 10 \/ 10 < x 0%nat < 117 / 10 ->
       solves_shallow_water g dim z no_friction W t x /\ 0 < h /\
       h + z x + q * q / (2 * g * (h * h)) = hc + 2 / 10 + q * q / (2 * g * (hc * hc)) /\
       (x 0%nat < 10 -> q * q < g * h ^ 3) /\ (10 < x 0%nat -> g * h ^ 3 < q * q)) /\
    (12 < x 0%nat -> solves_shallow_water g dim z no_friction W t x).
Proof.
  intros Hg Hdim W z q.
  assert (Hq : 0 < q) by (unfold q; lra).
  set (hc := powr (q * q / g) (1 / 3)).
  assert (PQ : 0 < q * q / g) by (apply Rdiv_lt_0_compat; nra).
  assert (Ph : 0 < hc) by (apply powr_gt; exact PQ).
  assert (H3 : hc ^ 3 = q * q / g).
  { unfold hc. rewrite powr_pos by exact PQ. rewrite <- Rpower_pow by apply exp_pos. rewrite Rpower_mult.
    replace (1 / 3 * INR 3) with 1 by (simpl; field). apply Rpower_1; exact PQ. }
  assert (H3' : g * hc ^ 3 = q * q) by (rewrite H3; field; lra).
  exists hc. split; [exact Ph|]. split; [exact H3'|]. intros t x Ht h.
  set (c := bump_bernoulli g false).
  assert (Ec : c = 2 / 10 + 15 / 10 * hc) by reflexivity.
  assert (Ed : cd g q = hc ^ 3 / 2) by (unfold cd; rewrite <- H3'; field; lra).
  assert (CP : forall y, 0 < cb c y).
  { intros y. pose proof (bz_bound y). unfold cb. rewrite Ec. lra. }
  assert (NC : forall y, y <> 10 -> noncritical g q c y).
  { intros y N. split; [apply CP|]. rewrite Ed. pose proof (bz_lt y N) as B.
    assert (L : hc / 2 < cb c y) by (unfold cb; rewrite Ec; lra).
    set (b := cb c y) in *. assert (Q : (hc / 2) ^ 3 < b ^ 3).
    { simpl. assert (0 < hc / 2) by lra. set (a := hc / 2) in *.
      assert (a * a < b * b) by nra. assert (a * (a * a) < b * (b * b)); [|lra].
      apply Rmult_gt_0_lt_compat; nra. }
    replace (hc ^ 3 / 2) with (4 * (hc / 2) ^ 3) by field. lra. }
  assert (E1 : forall s p, 1 / 10 ^ 12 <= s -> p 0%nat < 10 -> W s p = tensor [croot g q c 0 (p 0%nat); q]).
  { intros s p Hs Hp. apply (proj1 (bump_root g false p s Hg Hs (CP _))). right; exact Hp. }
  assert (E2 : forall s p, 1 / 10 ^ 12 <= s -> 10 <= p 0%nat < 117 / 10 -> W s p = tensor [croot g q c (4 * PI) (p 0%nat); q]).
  { intros s p Hs Hp. apply (proj2 (bump_root g false p s Hg Hs (CP _))); [reflexivity|exact Hp]. }
  assert (Ez : z x = bz (x 0%nat)) by apply bump_eq.
  assert (Be0 : hc + 2 / 10 + q * q / (2 * g * (hc * hc)) = c).
  { rewrite Ec, <- H3'. field. lra. }
  split; [|split].
  - unfold W, flow_over_bump. destruct (Rlt_dec t _); reflexivity.
  - intros C. assert (N10 : x 0%nat <> 10) by lra.
    destruct C as [C|C].
    + assert (E : h = croot g q c 0 (x 0%nat)) by (unfold h; rewrite E1 by lra; reflexivity).
      destruct (croot_bernoulli g q c (x 0%nat) 0 Hg Hq (or_introl eq_refl) (NC _ N10)) as (P & Be & Su & _).
      rewrite <- E in P, Be, Su. split; [|split; [exact P|split; [rewrite Ez, Be; symmetry; exact Be0|split; [intros _; apply Su; reflexivity|lra]]]].
      refine (bump_solves g q c 0 dim W t x Hg Hq Hdim (or_introl eq_refl) (NC _ N10) _ _).
      * eapply near_mp; [apply near_time; exact Ht|]. cbv beta. intros s Hs. apply E1; assumption.
      * eapply near_mp; [eapply (near_lt (fun y => y) (fun _ => 10)); [apply D_id|apply D_const|exact C]|].
        cbv beta. intros y Hy p Hp. rewrite E1 by lra. rewrite Hp. reflexivity.
    + assert (E : h = croot g q c (4 * PI) (x 0%nat)) by (unfold h; rewrite E2 by lra; reflexivity).
      destruct (croot_bernoulli g q c (x 0%nat) (4 * PI) Hg Hq (or_intror eq_refl) (NC _ N10)) as (P & Be & _ & Su).
      rewrite <- E in P, Be, Su. split; [|split; [exact P|split; [rewrite Ez, Be; symmetry; exact Be0|split; [lra|intros _; apply Su; reflexivity]]]].
      refine (bump_solves g q c (4 * PI) dim W t x Hg Hq Hdim (or_intror eq_refl) (NC _ N10) _ _).
      * eapply near_mp; [apply near_time; exact Ht|]. cbv beta. intros s Hs. apply E2; [assumption|lra].
      * eapply near_mp; [apply near_and; [eapply (near_lt (fun y => y) (fun _ => 117 / 10)); [apply D_id|apply D_const|apply C]
          |eapply (near_lt (fun _ => 10) (fun y => y)); [apply D_const|apply D_id|apply C]]|].
        cbv beta. intros y Hy p Hp. rewrite E2 by lra. rewrite Hp. reflexivity.
  - intros C. set (h0 := 28205279813802181 / 10 ^ 17).
    assert (S0 : solves_shallow_water g dim (fun _ => 0) no_friction W t x).
    { apply (const_residual g dim h0 q); [exact Hdim|unfold h0; lra| |].
      - eapply near_mp; [apply near_time; exact Ht|]. cbv beta. intros s Hs. apply bump_const; [exact Hs|lra|reflexivity].
      - eapply near_mp; [eapply (near_lt (fun _ => 12) (fun y => y)); [apply D_const|apply D_id|exact C]|].
        cbv beta. intros y Hy p Hp. apply bump_const; [lra|lra|reflexivity]. }
    destruct S0 as (dz & D & Bal). exists dz. split; [|exact Bal]. intros j Hj.
    assert (N : near 0 (fun s => 12 < along x j s 0%nat)).
    { apply (near_along x j (fun y => 12 < y)). eapply (near_lt (fun _ => 12) (fun y => y)); [apply D_const|apply D_id|exact C]. }
    destruct N as (d & Hd & N).
    apply (D_near (fun _ => 0) _ 0 _ d Hd); [|apply (D j Hj)].
    intros s Hs. specialize (N s Hs). symmetry. unfold z. rewrite bump_eq. apply bz_out. right. lra.
Qed.

Lemma C101_downstream_proof g dim : 0 < g -> (1 <= dim)%nat ->
  let W := fun t x => flow_over_bump g false x t in
  forall t x, 1 / 10 ^ 12 < t -> 117 / 10 < x 0%nat < 12 ->
    ~ solves_shallow_water g dim bump_bathymetry no_friction W t x.
Proof.
  intros Hg Hdim W t x Ht Hx (dz & D & Bal).
  assert (S0 : solves_shallow_water g dim (fun _ => 0) no_friction W t x).
  { apply (const_residual g dim (28205279813802181 / 10 ^ 17) (18 / 100)); [exact Hdim|lra| |].
    - eapply near_mp; [apply near_time; exact Ht|]. cbv beta. intros s Hs. apply bump_const; [exact Hs|lra|reflexivity].
    - eapply near_mp; [eapply (near_lt (fun _ => 117 / 10) (fun y => y)); [apply D_const|apply D_id|apply Hx]|].
      cbv beta. intros y Hy p Hp. apply bump_const; [lra|lra|reflexivity]. }
  destruct S0 as (dz0 & D0 & Bal0).
  assert (H1 : (1 < dim + 1)%nat) by lia.
  pose proof (balance_unique _ _ _ _ _ _ _ _ 1%nat H1 Bal Bal0) as E. cbn [Nat.eqb Nat.sub] in E. unfold no_friction in E.
  assert (Z0 : dz0 0%nat = 0) by (eapply uniqueness_limite; [apply D0; lia|apply D_const]).
  assert (Z1 : dz 0%nat = bz' (x 0%nat)).
  { eapply uniqueness_limite; [apply D; lia|].
    apply D_near with (d := 1) (f := fun s => bz (along x 0 s 0%nat)); [lra|intros; symmetry; apply bump_eq|].
    eapply D_eq; [apply D_first, D_bz|]. cbn [Nat.eqb]. ring. }
  assert (W0 : W t x 0%nat = 28205279813802181 / 10 ^ 17).
  { unfold W. rewrite (bump_const g x t _ ltac:(lra) ltac:(lra) eq_refl). reflexivity. }
  rewrite Z0, Z1, W0 in E.
  assert (B : bz' (x 0%nat) < 0).
  { unfold bz'. rewrite Rmax_right by nra. set (r := (x 0%nat - 8) * (12 - x 0%nat)). assert (0 < r) by (unfold r; nra).
    assert (0 < r ^ 2) by (apply pow_lt; assumption). nra. }
  assert (0 < g * (28205279813802181 / 10 ^ 17) * - bz' (x 0%nat)); [|lra].
  apply Rmult_lt_0_compat; [apply Rmult_lt_0_compat; lra|lra].
Qed.
