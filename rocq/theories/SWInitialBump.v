(** * Lemmas: flow over a bump *)
From Coq Require Import Reals Arith Lia Lra Psatz List.
From Verif Require Import RVec EulerSystem EulerInitialStates BalanceSpec BalanceProofs EulerInitialProofs
  EulerInitialFans EulerInitialMore EulerInitialNoh WaterProofs SWInitialStates SWInitialSpec SWInitialProofs.
Import ListNotations.
Local Open Scope R_scope.

Definition bz (y : R) : R := 2 / 10 / 64 * Rmax 0 ((y - 8) * (12 - y)) ^ 3.
Definition bz' (y : R) : R := 2 / 10 / 64 * (3 * Rmax 0 ((y - 8) * (12 - y)) ^ 2 * (20 - 2 * y)).

Lemma bump_eq p : bump_bathymetry p = bz (p 0%nat).
Proof.
  unfold bump_bathymetry, bz, Rmax. set (x := p 0%nat).
  destruct (Rle_dec 8 x), (Rle_dec x 12), (Rle_dec 0 ((x - 8) * (12 - x))); try nra; ring.
Qed.
Lemma D_bz y : derivable_pt_lim bz y (bz' y).
Proof.
  unfold bz. eapply D_eq.
  { apply D_scal. apply (D_comp (fun r => Rmax 0 r ^ 3) (fun y => (y - 8) * (12 - y))); [|apply D_cube].
    apply D_mult; (apply D_minus; [first [apply D_id|apply D_const]|first [apply D_const|apply D_id]]). }
  cbv beta. unfold bz'. ring.
Qed.
Lemma bz_bound y : 0 <= bz y <= 2 / 10.
Proof.
  unfold bz. assert (B : 0 <= Rmax 0 ((y - 8) * (12 - y)) <= 4).
  { split; [apply Rmax_l|]. apply Rmax_lub; [lra|]. pose proof (Rle_0_sqr (y - 10)) as Q. unfold Rsqr in Q. lra. }
  set (r := Rmax 0 _) in *. assert (0 <= r ^ 3 <= 64).
  { split; [apply pow_le; lra|]. replace 64 with (4 ^ 3) by ring. apply pow_incr. exact B. }
  lra.
Qed.
Lemma bz_lt y : y <> 10 -> bz y < 2 / 10.
Proof.
  intros N. unfold bz. assert (B : 0 <= Rmax 0 ((y - 8) * (12 - y)) < 4).
  { split; [apply Rmax_l|]. apply Rmax_lub_lt; [lra|]. assert (0 < (y - 10) * (y - 10)); [|nra].
    destruct (Rtotal_order y 10) as [Q|[Q|Q]]; [nra|lra|nra]. }
  set (r := Rmax 0 _) in *. assert (0 <= r ^ 3 < 64) by (split; [apply pow_le; lra|simpl; nra]).
  lra.
Qed.
Lemma bz_out y : y <= 8 \/ 12 <= y -> bz y = 0.
Proof. intros H. unfold bz. rewrite Rmax_left by nra. ring. Qed.

Section Cubic.
Variables g q c : R.
Hypothesis Hg : 0 < g.
Hypothesis Hq : 0 < q.

Definition cd : R := q * q / (2 * g).
Definition cb (y : R) : R := (c - bz y) / 3.
Definition carg (y : R) : R := 1 - cd / (2 * cb y ^ 3).
Definition croot (kappa y : R) : R := cb y * (1 + 2 * cos ((kappa + acos (carg y)) / 3)).

Lemma cd_pos : 0 < cd.
Proof. unfold cd. apply Rdiv_lt_0_compat; nra. Qed.

Lemma cos_3a p : cos (3 * p) = 4 * cos p ^ 3 - 3 * cos p.
Proof.
  replace (3 * p) with (2 * p + p) by ring. rewrite cos_plus, cos_2a_cos, sin_2a.
  pose proof (sin2_cos2 p) as Z. unfold Rsqr in Z.
  replace (2 * sin p * cos p * sin p) with (2 * cos p * (sin p * sin p)) by ring.
  replace (sin p * sin p) with (1 - cos p * cos p) by lra. ring.
Qed.

(** Away from the critical depth: 0 < d < 4 b^3. *)
Section At.
Variable y : R.
Hypothesis Hb : 0 < cb y.
Hypothesis Hc : cd < 4 * cb y ^ 3.

Lemma carg_bound : - 1 < carg y < 1.
Proof.
  unfold carg. assert (P : 0 < cb y ^ 3) by (apply pow_lt; exact Hb). pose proof cd_pos as D.
  assert (E : cd / (2 * cb y ^ 3) * (2 * cb y ^ 3) = cd) by (field; lra).
  assert (0 < cd / (2 * cb y ^ 3)) by (apply Rdiv_lt_0_compat; lra).
  split; [|lra]. assert (cd / (2 * cb y ^ 3) < 2); [|lra].
  apply (Rmult_lt_reg_r (2 * cb y ^ 3)); lra.
Qed.

Lemma croot_cubic kappa : (kappa = 0 \/ kappa = 4 * PI) ->
  croot kappa y ^ 3 - 3 * cb y * croot kappa y ^ 2 + cd = 0.
Proof.
  intros K. pose proof carg_bound as Bd.
  assert (E : cos (3 * ((kappa + acos (carg y)) / 3)) = carg y).
  { replace (3 * ((kappa + acos (carg y)) / 3)) with (acos (carg y) + kappa) by field.
    destruct K as [->| ->].
    - rewrite Rplus_0_r. apply cos_acos. lra.
    - replace (acos (carg y) + 4 * PI) with (acos (carg y) + 2 * INR 2 * PI) by (simpl; ring).
      rewrite cos_period. apply cos_acos. lra. }
  rewrite cos_3a in E. unfold croot. set (C := cos _) in *.
  assert (P : 0 < cb y ^ 3) by (apply pow_lt; exact Hb).
  assert (D : cd = cb y ^ 3 * (2 - 2 * carg y)). { unfold carg. field. lra. }
  rewrite D, <- E. ring.
Qed.

Lemma croot_0 : 2 * cb y < croot 0 y.
Proof.
  pose proof (acos_bound_lt _ carg_bound) as A. unfold croot.
  replace ((0 + acos (carg y)) / 3) with (acos (carg y) / 3) by field.
  assert (cos (PI / 3) < cos (acos (carg y) / 3)) by (apply cos_decreasing_1; lra).
  rewrite cos_PI3 in H. nra.
Qed.

Lemma croot_4 : 0 < croot (4 * PI) y < 2 * cb y.
Proof.
  pose proof (acos_bound_lt _ carg_bound) as A. unfold croot.
  replace (cos ((4 * PI + acos (carg y)) / 3)) with (cos (2 * (PI / 3) - acos (carg y) / 3)).
  2:{ rewrite <- cos_neg. replace ((4 * PI + acos (carg y)) / 3) with (- (2 * (PI / 3) - acos (carg y) / 3) + 2 * INR 1 * PI) by (simpl; field).
      rewrite cos_period. reflexivity. }
  assert (cos (2 * (PI / 3) - acos (carg y) / 3) < cos (PI / 3)) by (apply cos_decreasing_1; lra).
  assert (cos (2 * (PI / 3)) < cos (2 * (PI / 3) - acos (carg y) / 3)) by (apply cos_decreasing_1; lra).
  rewrite cos_PI3 in H. rewrite cos_2PI3 in H0. nra.
Qed.

Lemma D_croot kappa : exists l, derivable_pt_lim (croot kappa) y l.
Proof.
  assert (D1 : derivable_pt_lim cb y (- bz' y / 3)).
  { unfold cb. eapply D_eq; [apply D_div; [|apply D_minus; [apply D_const|apply D_bz]|apply D_const]|]; cbv beta; [lra|field]. }
  assert (P : 0 < cb y ^ 3) by (apply pow_lt; exact Hb).
  destruct (derivable_pt_acos _ carg_bound) as [la DA].
  eexists. unfold croot. apply D_mult; [exact D1|]. apply D_plus; [apply D_const|]. apply D_scal. apply D_cos.
  apply D_div; [|apply D_plus; [apply D_const|]|apply D_const]; [lra|].
  apply (D_comp acos carg); [|exact DA]. unfold carg. apply D_minus; [apply D_const|].
  apply D_div; [cbv beta; lra|apply D_const|]. apply D_scal. apply D_pow. exact D1.
Qed.

(** The derivative satisfies the differentiated cubic. *)
Lemma croot_ode kappa l : (kappa = 0 \/ kappa = 4 * PI) ->
  near y (fun s => 0 < cb s /\ cd < 4 * cb s ^ 3) ->
  (forall s, 0 < cb s -> cd < 4 * cb s ^ 3 -> croot kappa s ^ 3 - 3 * cb s * croot kappa s ^ 2 + cd = 0) ->
  derivable_pt_lim (croot kappa) y l -> croot kappa y <> 0 ->
  (3 * croot kappa y - 6 * cb y) * l + croot kappa y * bz' y = 0.
Proof.
  intros K (d & Hd & N) CU D NZ.
  assert (D1 : derivable_pt_lim cb y (- bz' y / 3)).
  { unfold cb. eapply D_eq; [apply D_div; [|apply D_minus; [apply D_const|apply D_bz]|apply D_const]|]; cbv beta; [lra|field]. }
  assert (E1 : derivable_pt_lim (fun s => croot kappa s ^ 3 - 3 * cb s * croot kappa s ^ 2 + cd) y 0).
  { apply (D_near (fun _ => 0) _ y 0 d Hd); [|apply D_const]. intros s Hs. symmetry. apply CU; apply (N s Hs). }
  assert (E2 : derivable_pt_lim (fun s => croot kappa s ^ 3 - 3 * cb s * croot kappa s ^ 2 + cd) y
    (INR 3 * croot kappa y ^ 2 * l - (3 * (- bz' y / 3) * croot kappa y ^ 2 + 3 * cb y * (INR 2 * croot kappa y ^ 1 * l)) + 0)).
  { eapply D_eq.
    - apply D_plus; [|apply D_const]. apply D_minus; [apply D_pow; exact D|]. apply D_mult; [apply D_scal; exact D1|apply D_pow; exact D].
    - cbv beta. simpl. field. }
  pose proof (uniqueness_limite _ _ _ _ E1 E2) as Z. simpl in Z.
  apply (Rmult_eq_reg_l (croot kappa y)); [|exact NZ]. lra.
Qed.
End At.
End Cubic.

Definition noncritical (g q c y : R) : Prop := 0 < cb c y /\ cd g q < 4 * cb c y ^ 3.

Lemma noncritical_near g q c y : noncritical g q c y -> near y (fun s => noncritical g q c s).
Proof.
  intros [H1 H2].
  assert (D1 : derivable_pt_lim (cb c) y (- bz' y / 3)).
  { unfold cb. eapply D_eq; [apply D_div; [|apply D_minus; [apply D_const|apply D_bz]|apply D_const]|]; cbv beta; [lra|field]. }
  apply near_and.
  - eapply near_pos; [exact D1|exact H1].
  - eapply near_lt; [apply D_const|apply D_scal, D_pow; exact D1|]. exact H2.
Qed.

Lemma croot_pos g q c y kappa : 0 < g -> 0 < q -> (kappa = 0 \/ kappa = 4 * PI) -> noncritical g q c y -> 0 < croot g q c kappa y.
Proof.
  intros Hg Hq K [H1 H2]. destruct K as [->| ->].
  - pose proof (croot_0 g q c Hg Hq y H1 H2). lra.
  - pose proof (croot_4 g q c Hg Hq y H1 H2). lra.
Qed.

Lemma bump_solves g q c kappa dim (W : field) t x : 0 < g -> 0 < q -> (1 <= dim)%nat -> (kappa = 0 \/ kappa = 4 * PI) ->
  noncritical g q c (x 0%nat) ->
  near t (fun s => W s x = tensor [croot g q c kappa (x 0%nat); q]) ->
  near (x 0%nat) (fun y => forall p, p 0%nat = y -> W t p = tensor [croot g q c kappa y; q]) ->
  solves_shallow_water g dim bump_bathymetry no_friction W t x.
Proof.
  intros Hg Hq Hdim K NC Nt Nx. set (y := x 0%nat) in *. set (h := croot g q c kappa).
  assert (Pos : forall s, noncritical g q c s -> 0 < h s) by (intros; apply croot_pos; assumption).
  assert (Ph : 0 < h y) by (apply Pos; exact NC).
  destruct NC as [N1 N2]. destruct (D_croot g q c Hg Hq y N1 N2 kappa) as [l D]. fold h in D.
  assert (ODE : (3 * h y - 6 * cb c y) * l + h y * bz' y = 0).
  { apply (croot_ode g q c y kappa l); try assumption.
    - exact (noncritical_near g q c y (conj N1 N2)).
    - intros s S1 S2. apply croot_cubic; assumption.
    - fold h. lra. }
  assert (CU : h y ^ 3 - 3 * cb c y * h y ^ 2 + cd g q = 0) by (apply croot_cubic; assumption).
  assert (SV : forall s, 0 < h s -> veq (dim + 1) (tensor [h s; q]) (water_state (h s) (vel0 (q / h s)))).
  { intros s P k Hk. unfold tensor, water_state, vel0. destruct k as [|[|k]]; cbn [nth Nat.eqb Nat.sub]; [reflexivity|field; lra|].
    rewrite Rmult_0_r. destruct k; reflexivity. }
  assert (Dv : derivable_pt_lim (fun s => q / h s) y (- (q * l) / (h y * h y))).
  { eapply D_eq; [apply D_div; [lra|apply D_const|exact D]|]. cbv beta. field. lra. }
  apply (water_line g dim bump_bathymetry no_friction (fun _ s => h s) (fun _ s => q / h s) bz W t x 0 l 0 _ (bz' y) Hdim) with (7 := Dv).
  - apply bump_eq.
  - eapply near_mp; [exact Nt|]. cbv beta. intros s E. rewrite E. apply SV. exact Ph.
  - eapply near_mp; [exact (near_and _ _ _ (noncritical_near g q c y (conj N1 N2)) Nx)|]. cbv beta.
    intros s [NS E]. split; [apply Rgt_not_eq, Pos; exact NS|]. intros p Hp. rewrite (E p Hp). apply SV. apply Pos; exact NS.
  - apply D_const.
  - apply D_const.
  - exact D.
  - apply D_bz.
  - fold y. field. lra.
  - fold y. unfold no_friction.
    assert (QQ : q * q = 2 * g * (3 * cb c y * h y ^ 2 - h y ^ 3)).
    { transitivity (2 * g * cd g q); [unfold cd; field; lra|]. f_equal. lra. }
    transitivity (g * h y * (l + bz' y) - q * q * l / (h y * h y)); [field; lra|].
    rewrite QQ. transitivity (g * ((3 * h y - 6 * cb c y) * l + h y * bz' y)); [field; lra|]. rewrite ODE. ring.
  - reflexivity.
Qed.

Lemma bump_root g sub p t : 0 < g -> 1 / 10 ^ 12 <= t ->
  let q := bump_discharge sub in let c := bump_bernoulli g sub in
  0 < cb c (p 0%nat) ->
  (sub = true \/ p 0%nat < 10 -> flow_over_bump g sub p t = tensor [croot g q c 0 (p 0%nat); q]) /\
  (sub = false -> 10 <= p 0%nat < 117 / 10 -> flow_over_bump g sub p t = tensor [croot g q c (4 * PI) (p 0%nat); q]).
Proof.
  intros Hg Ht q c Hb. unfold flow_over_bump. fold q c. rewrite bump_eq. set (y := p 0%nat) in *.
  assert (B : bz y - c = - (3 * cb c y)) by (unfold cb; field). rewrite B.
  set (b := cb c y) in *.
  assert (E1 : - (- (- (3 * b) * - (3 * b)) / 9) = b * b) by field. rewrite E1.
  rewrite sqrt_square by lra.
  assert (E2 : powr (b * b) (15 / 10) = b ^ 3).
  { assert (b * b > 0) by nra. rewrite powr_pos by lra.
    replace (b * b) with (Rpower b 2). 2:{ replace 2 with (1 + 1) by ring. rewrite Rpower_plus, Rpower_1 by lra. reflexivity. }
    rewrite Rpower_mult. replace (2 * (15 / 10)) with (INR 3) by (simpl; field). rewrite Rpower_pow by lra. reflexivity. }
  rewrite E2.
  assert (PB : 0 < b ^ 3) by (apply pow_lt; exact Hb).
  assert (E3 : / b ^ 3 * (- (27 * (q * q / (2 * g)) + 2 * (- (3 * b)) ^ 3) / 54) = carg g q c y).
  { unfold carg, cd. fold b. field. lra. }
  rewrite E3.
  assert (R0 : 2 * b * cos (acos (carg g q c y) / 3) - - (3 * b) / 3 = croot g q c 0 y).
  { unfold croot. fold b. rewrite Rplus_0_l. field. }
  assert (R4 : 2 * b * cos ((4 * PI + acos (carg g q c y)) / 3) - - (3 * b) / 3 = croot g q c (4 * PI) y).
  { unfold croot. fold b. field. }
  rewrite R0, R4. destruct (Rlt_dec t (1 / 10 ^ 12)); [lra|]. split.
  - intros [->|L]; [reflexivity|]. destruct sub; [reflexivity|]. destruct (Rle_dec 10 y); [lra|reflexivity].
  - intros -> L. destruct (Rle_dec 10 y); [|lra]. destruct (Rlt_dec y (117 / 10)); [reflexivity|lra].
Qed.

(** The depth belongs to a branch of the Bernoulli relation. *)
Lemma croot_bernoulli g q c y kappa : 0 < g -> 0 < q -> (kappa = 0 \/ kappa = 4 * PI) -> noncritical g q c y ->
  let h := croot g q c kappa y in
  0 < h /\ h + bz y + q * q / (2 * g * (h * h)) = c /\
  (kappa = 0 -> q * q < g * h ^ 3) /\ (kappa = 4 * PI -> g * h ^ 3 < q * q).
Proof.
  intros Hg Hq K NC h. assert (Ph : 0 < h) by (apply croot_pos; assumption). destruct NC as [N1 N2].
  assert (CU : h ^ 3 - 3 * cb c y * h ^ 2 + cd g q = 0) by (apply croot_cubic; assumption).
  assert (QQ : q * q = 2 * g * (3 * cb c y * h ^ 2 - h ^ 3)).
  { transitivity (2 * g * cd g q); [unfold cd; field; lra|]. f_equal. lra. }
  split; [exact Ph|]. split; [|split].
  - rewrite QQ. unfold cb. field. lra.
  - intros ->. pose proof (croot_0 g q c Hg Hq y N1 N2). fold h in H. rewrite QQ.
    assert (0 < g * (h ^ 2 * (3 * (h - 2 * cb c y)))); [|lra].
    apply Rmult_lt_0_compat; [exact Hg|]. apply Rmult_lt_0_compat; [apply pow_lt; exact Ph|lra].
  - intros ->. pose proof (croot_4 g q c Hg Hq y N1 N2). fold h in H. rewrite QQ.
    assert (0 < g * (h ^ 2 * (3 * (2 * cb c y - h)))); [|lra].
    apply Rmult_lt_0_compat; [exact Hg|]. apply Rmult_lt_0_compat; [apply pow_lt; exact Ph|lra].
Qed.

(** Two subcritical roots agree. *)
Lemma subcritical_unique g q z c h1 h2 : 0 < g -> 0 < h1 -> 0 < h2 -> q * q < g * h1 ^ 3 -> q * q < g * h2 ^ 3 ->
  h1 + z + q * q / (2 * g * (h1 * h1)) = c -> h2 + z + q * q / (2 * g * (h2 * h2)) = c -> h1 = h2.
Proof.
  intros Hg H1 H2 S1 S2 E1 E2.
  assert (Z : (h1 - h2) * (2 * g * (h1 * h1) * (h2 * h2) - q * q * (h1 + h2)) = 0).
  { transitivity (((h1 + z + q * q / (2 * g * (h1 * h1))) - (h2 + z + q * q / (2 * g * (h2 * h2)))) * (2 * g * (h1 * h1) * (h2 * h2))); [field; lra|].
    rewrite E1, E2. ring. }
  apply Rmult_integral in Z. destruct Z as [Z|Z]; [lra|]. exfalso.
  set (w := q * q) in *. simpl in S1, S2.
  (* w < g min(h)^3, so w (h1 + h2) < 2 g h1^2 h2^2 *)
  assert (A : forall a b, 0 < a -> a <= b -> w < g * (a * (a * (a * 1))) -> w * (a + b) < 2 * g * (a * a) * (b * b)).
  { intros a b Pa L S. apply Rlt_le_trans with (g * (a * (a * (a * 1))) * (a + b)); [apply Rmult_lt_compat_r; lra|].
    replace (g * (a * (a * (a * 1))) * (a + b)) with (g * (a * a) * (a * (a + b))) by ring.
    replace (2 * g * (a * a) * (b * b)) with (g * (a * a) * (2 * (b * b))) by ring.
    apply Rmult_le_compat_l; [apply Rmult_le_pos; nra|nra]. }
  destruct (Rle_lt_dec h1 h2) as [L|L].
  - pose proof (A h1 h2 H1 L S1). lra.
  - pose proof (A h2 h1 H2 ltac:(lra) S2). lra.
Qed.
