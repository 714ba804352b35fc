(** * Scalar scheme: conservation, maximum principle of the low-order update *)
From Coq Require Import Reals List Arith Bool Lia Lra Psatz FunctionalExtensionality.
From Verif Require Import RVec Simd Newton EulerSystem EulerLimiter Scalar ScalarSpec ScalarProofs Indicator SWScheme
  EulerSchemeProofs ScalarScheme ScalarSchemeSpec SchemeSpec SchemeProofs SchemeUpdate SchemeLimit SchemeFinal.
From Verif Require Import Scheme.
Import ListNotations.
Local Open Scope R_scope.

(** ** Conservation for a symmetric viscosity *)

Lemma conservation_symmetric K (Sy : system K) M nm order n a0 d0 l0 ln0 new0 old stages tau dim F k :
  symmetric_pattern M -> positive_masses M -> symmetric_matrices M ->
  plain Sy -> central_flux Sy dim F -> have_high_order_flux K Sy = false ->
  (forall i j, active M i -> In j (columns M i) -> skew_at M i j) ->
  (forall i j, (i < n_rows M)%nat -> In j (neighbours M i) ->
     dij_matrix Sy M nm old d0 j i = dij_matrix Sy M nm old d0 i j) ->
  total M (active_rows M) (fst (hyperbolic_update Sy M nm order n a0 d0 l0 ln0 new0 old stages tau)) k =
  total M (active_rows M) (fst old) k.
Proof.
  intros H HM HSM [Hp1 Hp2] HF Hho Hsk Hd.
  assert (Hneg : forall f c, dotp dim f (neg c) = - dotp dim f c).
  { intros f c. unfold dotp. rewrite <- lsum_opp. apply lsum_ext. intros x _.
    rewrite nth_neg. ring. }
  assert (HSD : skew_divergence Sy M (flux_divergence K Sy) k).
  { intros i j a b Hi Hj Hne. assert (Hn : In j (neighbours M i)) by (apply neighbours_in; auto).
    rewrite (Hsk i j (row_active M i j H Hi Hn) Hj), !HF, !Hneg. ring. }
  assert (Hs : source_free Sy k) by (intros E; rewrite Hp1 in E; discriminate).
  assert (Hsw : swapped_equilibrated Sy) by (intros E; rewrite Hp2 in E; discriminate).
  assert (Hskew : skew_divergence Sy M (flux_divergence K Sy) k /\
     (have_high_order_flux K Sy = true -> skew_divergence Sy M (high_order_flux_divergence K Sy) k)
     \/ (stages = [] /\ have_high_order_flux K Sy = false)).
  { left. split; [exact HSD|]. intros E. rewrite Hho in E. discriminate. }
  unfold hyperbolic_update, update. cbn [fst].
  rewrite (passes_conservation Sy M nm old stages _ _ tau k); auto.
  2: { apply corr_antisymmetric; assumption. }
  rewrite low_order_conservation by assumption.
  rewrite (lsum_ext _ (fun i => lsum (fun j =>
        flux_divergence K Sy (flux_contribution K Sy (snd old) i (fst old i))
          (flux_contribution K Sy (snd old) j (fst old j)) (c_ij M i j) k) (neighbours M i))).
  - rewrite pattern_sum; [ring|exact H|].
    intros i j Hi Hj. destruct (neighbours_columns M i j H Hi Hj) as [H1 H2]. apply HSD; auto.
  - intros i Ha. apply active_spec in Ha. destruct Ha as [Hi Hcon]. assert (Ha : active M i) by (split; assumption).
    rewrite (columns_split M i H Hi). cbn [lsum].
    assert (Hii : In i (columns M i)) by (rewrite (columns_split M i H Hi); left; reflexivity).
    assert (E : forall f, dotp dim f (c_ij M i i) = 0).
    { intros f. pose proof (f_equal (dotp dim f) (Hsk i i Ha Hii)) as E. rewrite Hneg in E. lra. }
    unfold Scheme.low_order_flux, Scheme.flux in *. rewrite HF, !E. ring.
Qed.

(** On one rank the matrix is symmetric whatever the estimate of the speed. *)
Lemma one_rank_symmetric K (Sy : system K) M nm old d0 i j : symmetric_pattern M -> valid_numbering M ->
  (forall i j, (i < n_rows M)%nat -> (j < n_rows M)%nat -> owner M i = owner M j) ->
  (i < n_rows M)%nat -> In j (neighbours M i) ->
  dij_matrix Sy M nm old d0 j i = dij_matrix Sy M nm old d0 i j.
Proof.
  intros H HV Ho Hi Hj. destruct (neighbours_bound M i j H Hi Hj) as [Hjb [_ Hne]].
  unfold dij_matrix. destruct (Nat.eqb_spec i j); [congruence|]. destruct (Nat.eqb_spec j i); [congruence|].
  unfold dij_symmetrized. destruct (below M j i) eqn:E.
  - rewrite (below_total M i j HV Hi Hjb) by (try assumption; congruence). reflexivity.
  - rewrite (below_none M i j HV Hi Hjb) by (try assumption; try apply Ho; congruence). reflexivity.
Qed.

(** ** The interface *)

Section Interface.
Variables (p : sparameters) (dim : nat).
Local Notation F := (sp_flux p).
Local Notation SY := (scalar_scheme p dim).

Definition s_F (a : FC unit SY) (k : unit) (x : nat) : R := a x.

Lemma scalar_central : central_flux SY dim s_F.
Proof.
  intros a b c k. rewrite !dotp_dot. cbn [flux_divergence scalar_scheme]. rewrite dot_add_l. reflexivity.
Qed.

Lemma scalar_plain : plain SY.
Proof. split; reflexivity. Qed.

Lemma sc_compute_symmetric greedy averaged draws u_i u_j pi pj n :
  sc_compute F greedy averaged (map (fun x => 1 - x) draws) dim u_j u_i pj pi (fun k => - n k) =
  sc_compute F greedy averaged draws dim u_i u_j pi pj n.
Proof.
  unfold sc_compute. rewrite !dot_opp_r.
  set (f_i := dot dim (construct_flux_tensor dim pi) n). set (f_j := dot dim (construct_flux_tensor dim pj) n).
  set (df_i := dot dim (construct_flux_gradient_tensor dim pi) n). set (df_j := dot dim (construct_flux_gradient_tensor dim pj) n).
  clearbody f_i f_j df_i df_j.
  replace (- f_j - - f_i) with (f_i - f_j) by ring. rewrite (Rabs_minus_sym u_j u_i).
  replace (Rabs (1 / 2 * (- df_j + - df_i))) with (Rabs (1 / 2 * (df_i + df_j)))
    by (rewrite <- Rabs_Ropp; f_equal; ring).
  rewrite !Rabs_Ropp.
  match goal with |- fold_left _ _ ?a = fold_left _ _ ?b => assert (E : a = b) end.
  { assert (E2 : forall x, Rmax (Rmax x (Rabs df_j)) (Rabs df_i) = Rmax (Rmax x (Rabs df_i)) (Rabs df_j))
      by (intros; rewrite <- !Rmax_assoc; f_equal; apply Rmax_comm).
    rewrite E2. destruct averaged; [|reflexivity]. rewrite enforce_mirror. f_equal. ring. }
  rewrite E. clear E. match goal with |- fold_left _ _ ?a = _ => generalize a end.
  induction draws as [|x draws IH]; intros l; cbn [map fold_left]; [reflexivity|].
  rewrite enforce_mirror.
  replace ((1 - x) * u_j + (1 - (1 - x)) * u_i) with (x * u_i + (1 - x) * u_j) by ring. apply IH.
Qed.

Lemma scalar_symmetric M old : (forall i j, sp_draws p j i = map (fun x => 1 - x) (sp_draws p i j)) ->
  symmetric_riemann SY M old.
Proof.
  intros HD i j Hi Hj Hc n. cbn [riemann_compute scalar_scheme]. rewrite (HD i j).
  rewrite <- (sc_compute_symmetric (sp_greedy p) (sp_averaged p) (sp_draws p i j) (fst old i tt) (fst old j tt) (snd old i) (snd old j) (vec_of n)).
  f_equal. apply functional_extensionality. intros k. unfold vec_of. symmetry. apply nth_neg.
Qed.

Section Pair.
Variables (M : mesh) (nm : R) (old : (nat -> state unit) * PC unit SY) (pc0 : nat -> vec) (d0 : nat -> nat -> R).
Local Notation U := (fst old).
Local Notation d := (dij_matrix SY M nm old d0).
Hypothesis Hpat : symmetric_pattern M.
Hypothesis Hnum : valid_numbering M.
Hypothesis Hpairs : pairs_listed M.
Hypothesis Hdim : mesh_dimension M dim.
Hypothesis Hpc : snd old = scalar_precomputed p dim M U pc0.
Hypothesis Hest : well_estimated p dim M U.

(** The flux of a node in direction [c]. *)
Lemma s_flux_value i c : active M i -> dotp dim (s_F (flux_contribution unit SY (snd old) i (U i)) tt) c = flux_n F dim (vec_of c) (U i tt).
Proof.
  intros Ha. destruct (proj1 (active_constrained M i) Ha) as [_ Hc].
  rewrite dotp_dot. cbn [flux_contribution scalar_scheme]. rewrite Hpc. unfold scalar_precomputed. rewrite Hc.
  apply prec_flux.
Qed.

Lemma s_wavespeed i j n : active M i -> active M j ->
  riemann_compute unit SY (snd old) (U i) (U j) i j n =
  sc_wavespeed F (sp_greedy p) (sp_averaged p) (sp_draws p i j) dim (U i tt) (U j tt) (vec_of n).
Proof.
  intros Ha Hb. destruct (proj1 (active_constrained M i) Ha) as [_ Hc]. destruct (proj1 (active_constrained M j) Hb) as [_ Hd].
  cbn [riemann_compute scalar_scheme]. rewrite Hpc. unfold scalar_precomputed. rewrite Hc, Hd. reflexivity.
Qed.

(** The viscosity of the Riemann solver bounds the jump of the flux. *)
Lemma s_lipschitz i j n : active M i -> In j (columns M i) ->
  0 <= sc_wavespeed F (sp_greedy p) (sp_averaged p) (sp_draws p i j) dim (U i tt) (U j tt) n /\
  Rabs (flux_n F dim n (U i tt) - flux_n F dim n (U j tt)) <=
  sc_wavespeed F (sp_greedy p) (sp_averaged p) (sp_draws p i j) dim (U i tt) (U j tt) n * Rabs (U i tt - U j tt).
Proof.
  intros Ha Hj. destruct Hest as [[Hg HC]|[HD HS]].
  - rewrite Hg. split; [|apply convex_lipschitz, HC].
    eapply Rle_trans; [apply Rabs_pos|]. apply (convex_speed F (sp_averaged p) (sp_draws p i j) dim (U i tt) (U j tt) n (HC n _ _) (U i tt)).
    split; [apply Rmin_l|apply Rmax_l].
  - split; [apply sc_wavespeed_nonneg; exact HD|]. destruct (Req_dec (U i tt) (U j tt)) as [E|Ne].
    + rewrite <- E, !Rminus_eq_0, Rabs_R0. lra.
    + apply roe_separated; [lra|exact Ne|]. destruct (HS i j Ha Hj); [contradiction|assumption].
Qed.

Lemma flux_n_opp n u : flux_n F dim (fun k => - n k) u = - flux_n F dim n u.
Proof. rewrite !flux_n_dot. apply dot_opp_r. Qed.

Lemma wave_lipschitz i j : active M i -> In j (columns M i) ->
  0 <= wave_viscosity SY M old i j /\
  Rabs (flux_n F dim (vec_of (c_ij M i j)) (U i tt) - flux_n F dim (vec_of (c_ij M i j)) (U j tt)) <=
  wave_viscosity SY M old i j * Rabs (U i tt - U j tt).
Proof.
  intros Ha Hj. pose proof (cols_active M i j Hpat Ha Hj) as Hb.
  unfold wave_viscosity. set (c := c_ij M i j). rewrite (s_wavespeed i j _ Ha Hb).
  pose proof (cnorm_nonneg c) as Hc.
  destruct (s_lipschitz i j (vec_of (cdiv c (cnorm c))) Ha Hj) as [L1 L2].
  split; [apply Rmult_le_pos; assumption|].
  destruct (Rle_lt_or_eq_dec 0 (cnorm c) Hc) as [P|Z].
  - assert (E : forall u, flux_n F dim (vec_of c) u = cnorm c * flux_n F dim (vec_of (cdiv c (cnorm c))) u).
    { intros u. rewrite !flux_n_dot, <- !dotp_dot, dotp_cdiv. field. lra. }
    rewrite !E, <- Rmult_minus_distr_l, Rabs_mult, (Rabs_right (cnorm c)), Rmult_assoc by lra.
    apply Rmult_le_compat_l; assumption.
  - assert (E : forall u, flux_n F dim (vec_of c) u = 0).
    { intros u. rewrite flux_n_dot, <- dotp_dot. unfold dotp. apply lsum_zero. intros x _.
      rewrite (cnorm_zero c (eq_sym Z) x). ring. }
    rewrite !E, <- Z. rewrite Rminus_eq_0, Rabs_R0. lra.
Qed.

(** So does d_ij. *)
Lemma dij_lipschitz i j : active M i -> In j (neighbours M i) ->
  0 <= d i j /\
  Rabs (flux_n F dim (vec_of (c_ij M i j)) (U i tt) - flux_n F dim (vec_of (c_ij M i j)) (U j tt)) <= d i j * Rabs (U i tt - U j tt).
Proof.
  intros Ha Hj. pose proof (proj1 Ha) as Hi. destruct (neighbours_bound M i j Hpat Hi Hj) as [Hjb [Hij Hne]].
  pose proof (col_active M i j Hpat Hi Hj) as Hb.
  assert (Hjc : In j (columns M i)) by (apply (neighbours_columns M i j Hpat Hi Hj)).
  destruct (wave_lipschitz i j Ha Hjc) as [A1 A2].
  assert (Hic : In i (columns M j)) by apply (neighbours_columns M j i Hpat Hjb Hij).
  destruct (wave_lipschitz j i Hb Hic) as [B1 B2].
  unfold dij_matrix. destruct (Nat.eqb_spec i j); [congruence|]. unfold dij_symmetrized.
  destruct (below M j i) eqn:E.
  - (* the entry of row j *)
    assert (Ebl : below M i j = false) by (apply below_total; auto).
    unfold dij_boundary. rewrite (dij_step2_upper SY M old d0 j i Hpat Hnum Hjb Hij Ebl), Ebl, andb_true_r, viscosity_eq.
    destruct (existsb _ _) eqn:Ex.
    + split; [eapply Rle_trans; [exact A1|apply Rmax_r]|].
      eapply Rle_trans; [exact A2|]. apply Rmult_le_compat_r; [apply Rabs_pos|apply Rmax_r].
    + split; [exact B1|]. destruct (Hpairs j i Hb Hic (not_eq_sym n)) as [Hs|[Hl _]].
      * unfold skew_at in Hs. rewrite Hs.
        assert (Ev : vec_of (neg (c_ij M j i)) = (fun k => - vec_of (c_ij M j i) k)).
        { apply functional_extensionality. intros k. unfold vec_of. apply nth_neg. }
        rewrite Ev, !flux_n_opp. rewrite Rabs_minus_sym in B2. rewrite (Rabs_minus_sym (U j tt)) in B2.
        replace (- flux_n F dim (vec_of (c_ij M j i)) (U i tt) - - flux_n F dim (vec_of (c_ij M j i)) (U j tt))
          with (- (flux_n F dim (vec_of (c_ij M j i)) (U i tt) - flux_n F dim (vec_of (c_ij M j i)) (U j tt))) by ring.
        rewrite Rabs_Ropp. exact B2.
      * apply (proj2 (pair_listed_spec M j i)) in Hl. congruence.
  - unfold dij_boundary. rewrite (dij_step2_upper SY M old d0 i j Hpat Hnum Hi Hj E), E, andb_true_r, viscosity_eq.
    destruct (existsb _ _).
    + split; [eapply Rle_trans; [exact A1|apply Rmax_l]|].
      eapply Rle_trans; [exact A2|]. apply Rmult_le_compat_r; [apply Rabs_pos|apply Rmax_l].
    + split; assumption.
Qed.

Lemma bar_hull x y g D : 0 < D -> Rabs g <= D * Rabs (x - y) -> Rmin x y <= (x + y) / 2 - g / (2 * D) <= Rmax x y.
Proof.
  intros HD Hg. assert (Hx : Rabs (g / D) <= Rabs (x - y)).
  { unfold Rdiv. rewrite Rabs_mult, (Rabs_right (/ D)) by (left; apply Rinv_0_lt_compat; exact HD).
    apply Rmult_le_reg_r with D; [exact HD|]. replace (Rabs g * / D * D) with (Rabs g) by (field; lra). lra. }
  replace (g / (2 * D)) with (g / D / 2) by (field; lra). set (q := g / D) in *. clearbody q.
  pose proof (Rle_abs q). pose proof (Rle_abs (- q)) as H2. rewrite Rabs_Ropp in H2.
  destruct (Rle_lt_dec x y).
  - rewrite Rmin_left, Rmax_right by assumption. rewrite (Rabs_left1 (x - y)) in Hx by lra. lra.
  - rewrite Rmin_right, Rmax_left by lra. rewrite (Rabs_right (x - y)) in Hx by lra. lra.
Qed.

Lemma s_bar i j : active M i -> In j (neighbours M i) -> 0 < d i j ->
  Rmin (U i tt) (U j tt) <= bar_state SY M dim s_F old (d i j) i j tt <= Rmax (U i tt) (U j tt).
Proof.
  intros Ha Hj Hd. pose proof (col_active M i j Hpat (proj1 Ha) Hj) as Hb.
  destruct (dij_lipschitz i j Ha Hj) as [_ L].
  unfold bar_state. cbv zeta. rewrite (s_flux_value i _ Ha), (s_flux_value j _ Hb). apply bar_hull; [exact Hd|].
  rewrite Rabs_minus_sym. exact L.
Qed.

Lemma s_flat i j : active M i -> In j (neighbours M i) -> d i j = 0 ->
  flux_n F dim (vec_of (c_ij M i j)) (U j tt) = flux_n F dim (vec_of (c_ij M i j)) (U i tt).
Proof.
  intros Ha Hj Hd. destruct (dij_lipschitz i j Ha Hj) as [_ L]. rewrite Hd, Rmult_0_l in L.
  pose proof (Rabs_pos (flux_n F dim (vec_of (c_ij M i j)) (U i tt) - flux_n F dim (vec_of (c_ij M i j)) (U j tt))).
  assert (E : Rabs (flux_n F dim (vec_of (c_ij M i j)) (U i tt) - flux_n F dim (vec_of (c_ij M i j)) (U j tt)) = 0) by lra.
  destruct (Req_dec (flux_n F dim (vec_of (c_ij M i j)) (U i tt) - flux_n F dim (vec_of (c_ij M i j)) (U j tt)) 0) as [Z|Z]; [lra|].
  pose proof (Rabs_pos_lt _ Z). lra.
Qed.

Variables (cfl tau : R).
Hypothesis Hmass : positive_masses M.
Hypothesis Hnm : 0 < nm.
Hypothesis Hcfl : 0 < cfl <= 1.
Hypothesis Htau : 0 <= tau.
Hypothesis Hstep : forall t, In t (row_tau SY M nm cfl old d0) -> tau <= t.
Hypothesis Hsum : forall i, active M i -> zero_row_sum M i.

Lemma interval_set a b : convex_set (fun u : state unit => a <= u tt <= b).
Proof.
  intros u v x [H1 H2] [H3 H4] [H5 H6].
  assert (0 <= x * (u tt - a)) by (apply Rmult_le_pos; lra). assert (0 <= x * (b - u tt)) by (apply Rmult_le_pos; lra).
  assert (0 <= (1 - x) * (v tt - a)) by (apply Rmult_le_pos; lra). assert (0 <= (1 - x) * (b - v tt)) by (apply Rmult_le_pos; lra). lra.
Qed.

(** The low-order update is in every interval that contains the bar states. *)
Lemma s_low_convex a b order a0 l0 ln0 new0 stages i : active M i -> a <= U i tt <= b ->
  (forall j, In j (neighbours M i) -> 0 < d i j -> a <= bar_state SY M dim s_F old (d i j) i j tt <= b) ->
  a <= fst (hyperbolic_update SY M nm order 0 a0 d0 l0 ln0 new0 old stages tau) i tt <= b.
Proof.
  intros Ha Hi0 Hb. destruct (proj1 (active_constrained M i) Ha) as [Hi Hc].
  apply (C18_convex_combination_proof unit SY M nm cfl dim s_F (fun u => a <= u tt <= b)); try assumption; auto.
  - apply scalar_plain.
  - apply scalar_central.
  - apply interval_set.
  - intros j Hj Hne. pose proof (columns_neighbours M i j Hpat Hi Hj Hne) as Hn.
    destruct (dij_lipschitz i j Ha Hn) as [D0 _].
    destruct (Rle_lt_or_eq_dec 0 _ D0) as [P|Z]; [left|right].
    + split; [exact P|]. apply Hb; assumption.
    + split; [symmetry; exact Z|]. intros []. pose proof (cols_active M i j Hpat Ha Hj) as Hjb.
      rewrite (s_flux_value i _ Ha), (s_flux_value j _ Hjb). apply s_flat; auto.
Qed.

Lemma s_maximum a b order a0 l0 ln0 new0 stages i : active M i ->
  (forall j, In j (columns M i) -> a <= U j tt <= b) ->
  a <= fst (hyperbolic_update SY M nm order 0 a0 d0 l0 ln0 new0 old stages tau) i tt <= b.
Proof.
  intros Ha HU. assert (Hii : In i (columns M i)) by (rewrite (columns_split M i Hpat (proj1 Ha)); left; reflexivity).
  apply s_low_convex; [exact Ha|apply HU; exact Hii|].
  intros j Hj P. pose proof (s_bar i j Ha Hj P) as [B1 B2].
  assert (Hjc : In j (columns M i)) by (rewrite (columns_split M i Hpat (proj1 Ha)); right; exact Hj).
  pose proof (HU i Hii). pose proof (HU j Hjc).
  split; [eapply Rle_trans; [|exact B1]; apply Rmin_glb; lra|eapply Rle_trans; [exact B2|]; apply Rmax_lub; lra].
Qed.
End Pair.
End Interface.
