(** * Scalar scheme: statements *)
From Coq Require Import Reals List Arith Bool Lia Lra Psatz FunctionalExtensionality.
From Verif Require Import RVec Simd Newton EulerSystem EulerLimiter EulerLimiterBounds Scalar ScalarSpec ScalarProofs Indicator SWScheme
  EulerSchemeProofs ScalarScheme ScalarSchemeSpec ScalarSchemeProofs ScalarSchemeBounds SchemeSpec SchemeProofs SchemeUpdate SchemeLimit SchemeFinal SchemeExamples SWSchemeExamples.
From Verif Require Import Scheme.
Import ListNotations.
Local Open Scope R_scope.

Lemma C114_conservation_proof :
  forall p dim M num_min order n a0 d0 l0 ln0 new0
         (old : (nat -> state unit) * PC unit (scalar_scheme p dim)) stages tau k,
    symmetric_pattern M -> positive_masses M -> valid_numbering M -> symmetric_matrices M -> pairs_listed M ->
    (forall i j, active M i -> In j (columns M i) -> skew_at M i j) ->
    (forall i j, sp_draws p j i = map (fun x => 1 - x) (sp_draws p i j)) ->
    let rows := active_rows M in
    total M rows (fst (hyperbolic_update (scalar_scheme p dim) M num_min order n a0 d0 l0 ln0 new0 old stages tau)) k =
    total M rows (fst old) k.
Proof.
  intros p dim M nm order n a0 d0 l0 ln0 new0 old stages tau k Hpat Hm Hnum Hsym Hpairs Hsk HD rows. unfold rows.
  pose proof (scalar_symmetric p dim M old HD) as HR.
  apply (conservation_symmetric unit (scalar_scheme p dim) M nm order n a0 d0 l0 ln0 new0 old stages tau dim (s_F p dim) k Hpat Hm Hsym
    (scalar_plain p dim) (scalar_central p dim) eq_refl Hsk).
  intros i j Hi Hj. destruct (neighbours_bound M i j Hpat Hi Hj) as [Hjb [Hij Hne]].
  rewrite (dij_value _ M nm old d0 i j Hpat Hnum Hpairs HR Hi Hj).
  rewrite (dij_value _ M nm old d0 j i Hpat Hnum Hpairs HR Hjb Hij). apply Rmax_comm.
Qed.

Lemma C114_one_rank_proof :
  forall p dim M num_min order n a0 d0 l0 ln0 new0
         (old : (nat -> state unit) * PC unit (scalar_scheme p dim)) stages tau k,
    symmetric_pattern M -> positive_masses M -> valid_numbering M -> symmetric_matrices M ->
    (forall i j, active M i -> In j (columns M i) -> skew_at M i j) ->
    (forall i j, (i < n_rows M)%nat -> (j < n_rows M)%nat -> owner M i = owner M j) ->
    let rows := active_rows M in
    total M rows (fst (hyperbolic_update (scalar_scheme p dim) M num_min order n a0 d0 l0 ln0 new0 old stages tau)) k =
    total M rows (fst old) k.
Proof.
  intros p dim M nm order n a0 d0 l0 ln0 new0 old stages tau k Hpat Hm Hnum Hsym Hsk HO rows. unfold rows.
  apply (conservation_symmetric unit (scalar_scheme p dim) M nm order n a0 d0 l0 ln0 new0 old stages tau dim (s_F p dim) k Hpat Hm Hsym
    (scalar_plain p dim) (scalar_central p dim) eq_refl Hsk).
  intros i j Hi Hj. apply one_rank_symmetric; assumption.
Qed.

Lemma C115_low_order_proof :
  forall p dim M num_min cfl order a0 d0 l0 ln0 new0 pc0
         (old : (nat -> state unit) * PC unit (scalar_scheme p dim)) stages tau a b i,
    symmetric_pattern M -> positive_masses M -> valid_numbering M -> pairs_listed M ->
    (forall i, active M i -> zero_row_sum M i) ->
    snd old = scalar_precomputed p dim M (fst old) pc0 ->
    well_estimated p dim M (fst old) ->
    0 < num_min -> 0 < cfl <= 1 -> 0 <= tau ->
    (forall t, In t (row_tau (scalar_scheme p dim) M num_min cfl old d0) -> tau <= t) ->
    active M i -> (forall j, In j (columns M i) -> a <= fst old j tt <= b) ->
    a <= fst (hyperbolic_update (scalar_scheme p dim) M num_min order 0 a0 d0 l0 ln0 new0 old stages tau) i tt <= b.
Proof.
  intros p dim M nm cfl order a0 d0 l0 ln0 new0 pc0 old stages tau a b i Hpat Hm Hnum Hpairs Hsum Hpc Hest Hnm Hcfl Ht Hstep Ha HU.
  apply (s_maximum p dim M nm old pc0 d0 Hpat Hnum Hpairs Hpc Hest cfl tau Hm Hnm Hcfl Ht Hstep Hsum); assumption.
Qed.

Lemma C116_inside_proof :
  forall p dim M num_min cfl order n a0 d0 l0 ln0 new0 pc0
         (old : (nat -> state unit) * PC unit (scalar_scheme p dim)) stages tau,
    symmetric_pattern M -> positive_masses M -> valid_numbering M -> pairs_listed M ->
    (forall i, active M i -> zero_row_sum M i) ->
    snd old = scalar_precomputed p dim M (fst old) pc0 ->
    well_estimated p dim M (fst old) -> zero_or_fast p dim M num_min old d0 ->
    0 < num_min -> 0 <= sp_eps p -> 0 < sp_tiny p -> 0 <= sp_relaxation p ->
    0 < cfl <= 1 -> 0 <= tau ->
    (forall t, In t (row_tau (scalar_scheme p dim) M num_min cfl old d0) -> tau <= t) ->
    (n <= 2)%nat ->
    let bounds := limiter_bounds_i (scalar_scheme p dim) M num_min old
                    (dij_matrix (scalar_scheme p dim) M num_min old d0) tau order in
    (sp_eps p = 0 \/ forall i, active M i -> 0 <= u_max (bounds i)) ->
    forall i, active M i ->
    value_inside (bounds i)
      (fst (hyperbolic_update (scalar_scheme p dim) M num_min order n a0 d0 l0 ln0 new0 old stages tau) i).
Proof.
  intros p dim M nm cfl order n a0 d0 l0 ln0 new0 pc0 old stages tau Hpat Hm Hnum Hpairs Hsum Hpc Hest Hfast Hnm He Hti Hr Hcfl Ht Hstep Hn.
  apply (s_final p dim M nm old pc0 d0 cfl tau Hpat Hnum Hpairs Hpc Hest Hm Hnm Hcfl Ht Hstep Hsum He Hr Hfast); assumption.
Qed.

Lemma C116_verdict_proof :
  forall p dim M num_min cfl order n a0 d0 new0 pc0
         (old : (nat -> state unit) * PC unit (scalar_scheme p dim)) stages tau,
    symmetric_pattern M -> positive_masses M -> valid_numbering M -> pairs_listed M ->
    (forall i, active M i -> zero_row_sum M i) ->
    snd old = scalar_precomputed p dim M (fst old) pc0 ->
    well_estimated p dim M (fst old) -> zero_or_fast p dim M num_min old d0 ->
    0 < num_min -> 0 <= sp_eps p -> 0 <= sp_relaxation p ->
    0 < cfl <= 1 -> 0 <= tau ->
    (forall t, In t (row_tau (scalar_scheme p dim) M num_min cfl old d0) -> tau <= t) ->
    ~ violation (scalar_scheme p dim) M num_min order n (compute_alpha (scalar_scheme p dim) M old a0)
        (dij_matrix (scalar_scheme p dim) M num_min old d0) new0 old stages tau.
Proof.
  intros p dim M nm cfl order n a0 d0 new0 pc0 old stages tau Hpat Hm Hnum Hpairs Hsum Hpc Hest Hfast Hnm He Hr Hcfl Ht Hstep.
  apply (s_verdict p dim M nm old pc0 d0 cfl tau Hpat Hnum Hpairs Hpc Hest Hm Hnm Hcfl Ht Hstep Hsum He Hr Hfast).
Qed.

Lemma C117_local_proof :
  forall p dim M num_min cfl order n a0 d0 l0 ln0 new0 pc0
         (old : (nat -> state unit) * PC unit (scalar_scheme p dim)) stages tau a b i,
    symmetric_pattern M -> positive_masses M -> valid_numbering M -> pairs_listed M ->
    (forall i, active M i -> zero_row_sum M i) -> discontinuous M = false ->
    snd old = scalar_precomputed p dim M (fst old) pc0 ->
    well_estimated p dim M (fst old) -> zero_or_fast p dim M num_min old d0 ->
    0 < num_min -> 0 <= sp_eps p -> 0 < sp_tiny p -> sp_relaxation p = 0 ->
    0 < cfl <= 1 -> 0 <= tau ->
    (forall t, In t (row_tau (scalar_scheme p dim) M num_min cfl old d0) -> tau <= t) ->
    (n <= 2)%nat -> (sp_eps p = 0 \/ forall k, active M k -> 0 <= fst old k tt) ->
    - sp_big p <= b -> a <= sp_big p ->
    active M i -> (forall j, In j (columns M i) -> a <= fst old j tt <= b) ->
    a <= fst (hyperbolic_update (scalar_scheme p dim) M num_min order n a0 d0 l0 ln0 new0 old stages tau) i tt <= b.
Proof.
  intros p dim M nm cfl order n a0 d0 l0 ln0 new0 pc0 old stages tau a b i Hpat Hm Hnum Hpairs Hsum Hdg Hpc Hest Hfast Hnm He Hti Hr Hcfl Ht Hstep Hn HE H1 H2 Ha HU.
  assert (Hr' : 0 <= sp_relaxation p) by lra.
  apply (s_local p dim M nm old pc0 d0 cfl tau Hpat Hnum Hpairs Hpc Hest Hm Hnm Hcfl Ht Hstep Hsum He Hr' Hfast); assumption.
Qed.

Lemma C117_relaxed_proof :
  forall p dim M num_min cfl order n a0 d0 l0 ln0 new0 pc0
         (old : (nat -> state unit) * PC unit (scalar_scheme p dim)) stages tau a b i,
    symmetric_pattern M -> positive_masses M -> valid_numbering M -> pairs_listed M ->
    (forall i, active M i -> zero_row_sum M i) -> discontinuous M = false ->
    snd old = scalar_precomputed p dim M (fst old) pc0 ->
    well_estimated p dim M (fst old) -> zero_or_fast p dim M num_min old d0 ->
    0 < num_min -> 0 <= sp_eps p -> 0 < sp_tiny p -> 0 <= sp_relaxation p ->
    0 < cfl <= 1 -> 0 <= tau ->
    (forall t, In t (row_tau (scalar_scheme p dim) M num_min cfl old d0) -> tau <= t) ->
    (n <= 2)%nat -> (sp_eps p = 0 \/ forall k, active M k -> 0 <= fst old k tt) ->
    - sp_big p <= b -> a <= sp_big p ->
    let r := relaxation_radius dim (mass M i * (1 / measure_of_omega M)) * sp_relaxation p in
    r <= 1 -> active M i -> (forall j, In j (columns M i) -> a <= fst old j tt <= b) ->
    a - r * Rabs a <=
    fst (hyperbolic_update (scalar_scheme p dim) M num_min order n a0 d0 l0 ln0 new0 old stages tau) i tt <=
    b + r * Rabs b.
Proof.
  intros p dim M nm cfl order n a0 d0 l0 ln0 new0 pc0 old stages tau a b i Hpat Hm Hnum Hpairs Hsum Hdg Hpc Hest Hfast Hnm He Hti Hr Hcfl Ht Hstep Hn HE H1 H2 r Hr1 Ha HU.
  apply (s_window p dim M nm old pc0 d0 cfl tau Hpat Hnum Hpairs Hpc Hest Hm Hnm Hcfl Ht Hstep Hsum He Hr Hfast); assumption.
Qed.

Lemma ring_radius : forall i, relaxation_radius 1 (mass ring3 i * (1 / measure_of_omega ring3)) * 1 <= 1.
Proof.
  intros i. cbn [mass measure_of_omega ring3]. unfold relaxation_radius. cbn [Nat.eqb].
  replace (1 * (1 / 3)) with (1 / 3) by lra.
  assert (H0 := sqrt_pos (1 / 3)). assert (H1 : sqrt (1 / 3) < sqrt 1) by (apply sqrt_lt_1_alt; lra).
  rewrite sqrt_1 in H1. set (q := sqrt (1 / 3)) in *. assert (q * q < 1) by nra. assert (0 <= q * q) by nra. nra.
Qed.

Lemma boundary_loop_in M a b entries : forall U V,
  (forall i id data, In (i, id, data) entries -> id = dirichlet -> a <= data <= b) ->
  sc_boundary_loop entries U = Some V -> values_in M a b U -> values_in M a b V.
Proof.
  induction entries as [|[[i id] data] rest IH]; intros U V HD E HU; cbn [sc_boundary_loop] in E.
  - inversion E; subst. exact HU.
  - destruct (sc_apply_boundary_conditions id (U i tt) data) as [u|] eqn:Eu; [|discriminate].
    apply (IH (fun k => if (k =? i)%nat then fun _ => u else U k) V); [intros; eapply HD; [right|]; eassumption|exact E|].
    intros k Hk. destruct (Nat.eqb_spec k i) as [->|]; [|apply HU, Hk].
    destruct id; cbn in Eu; inversion Eu; subst; try apply HU, Hk.
    apply (HD i dirichlet u); [left; reflexivity|reflexivity].
Qed.

Lemma C117_run_proof :
  forall p dim M num_min cfl order (D : R -> Prop) start U a b,
    symmetric_pattern M -> positive_masses M -> valid_numbering M -> pairs_listed M ->
    (forall i, active M i -> zero_row_sum M i) -> (forall i, In i order -> (i < n_rows M)%nat) ->
    0 < num_min -> 0 <= sp_eps p -> 0 < sp_tiny p -> sp_relaxation p = 0 -> 0 < cfl <= 1 ->
    - sp_big p <= b -> a <= sp_big p -> (sp_eps p = 0 \/ 0 <= a) ->
    (forall x, D x -> a <= x <= b) -> values_in M a b start ->
    scalar_run p dim M num_min cfl order D start U ->
    values_in M a b U.
Proof.
  intros p dim M nm cfl order D start U a b Hpat Hm Hnum Hpairs Hsum Ho Hnm He Hti Hr Hcfl H1 H2 HE HD HS HRun.
  induction HRun as [|U entries V _ IH Hdata E|U draws n a0 d0 l0 ln0 new0 pc0 stages tau q old _ IH Hn Hest Hfast Ht Hstep].
  - exact HS.
  - apply (boundary_loop_in M a b entries U V); [|exact E|exact IH]. intros i id data Hin Hid. apply HD. eapply Hdata; eassumption.
  - assert (Hr' : 0 <= sp_relaxation q) by (cbn; lra).
    apply (s_interval q dim M nm old pc0 d0 cfl tau Hpat Hnum Hpairs eq_refl Hest Hm Hnm Hcfl Ht Hstep Hsum He Hr' Hfast); assumption.
Qed.

(** ** Concrete cases *)

(** Burgers on the ring of three rows. *)
Definition water : sparameters :=
  {| sp_flux := Scalar.burgers (1 / 8); sp_greedy := false; sp_averaged := true; sp_draws := fun _ _ => [];
     sp_eps := 1 / 1000; sp_tiny := 1 / 1000; sp_big := 1000; sp_relaxation := 0; sp_evc := 1 |}.
Definition step_U : nat -> state unit := fun i _ => if (i =? 2)%nat then 0 else 1.
Definition water_old : (nat -> state unit) * PC unit (scalar_scheme water 1) :=
  (step_U, scalar_precomputed water 1 ring3 step_U (fun _ _ => 0)).

Lemma water_estimated U : well_estimated water 1 ring3 U.
Proof. left. split; [reflexivity|]. intros. apply burgers_convex. Qed.

Lemma cnorm_1 x : cnorm [x] = Rabs x.
Proof. unfold cnorm. cbn. rewrite ?Rplus_0_r, ?Rplus_0_l. apply sqrt_Rsqr_abs. Qed.

Lemma ring3_skew i j : active ring3 i -> In j (columns ring3 i) -> skew_at ring3 i j.
Proof.
  intros [Hi _] Hj. unfold skew_at. cbn [c_ij ring3]. apply ring_skew; [exact Hi|].
  apply (uniform_columns ring3 ring3_pattern i j Hi Hj).
Qed.

Lemma rabs_half : Rabs (1 / 2) = 1 / 2. Proof. apply Rabs_right; lra. Qed.
Lemma rabs_mhalf : Rabs (- (1 / 2)) = 1 / 2. Proof. rewrite Rabs_Ropp. apply rabs_half. Qed.


(** *** Random entropies on two ranks *)

Definition dice : sparameters :=
  {| sp_flux := Scalar.burgers (1 / 8); sp_greedy := true; sp_averaged := false;
     sp_draws := fun i _ => if (i =? 2)%nat then [0] else [1 / 2];
     sp_eps := 1 / 1000; sp_tiny := 1 / 1000; sp_big := 1000; sp_relaxation := 0; sp_evc := 1 |}.
Definition dice_old : (nat -> state unit) * PC unit (scalar_scheme dice 1) :=
  (step_U, scalar_precomputed dice 1 ring3 step_U (fun _ _ => 0)).

Ltac dec_r := repeat match goal with
  | |- context [Rabs ?x] =>
      first [ replace (Rabs x) with x by (symmetry; apply Rabs_right; lra)
            | replace (Rabs x) with (- x) by (symmetry; apply Rabs_left; lra) ]
  | |- context [Rge_dec ?x ?y] =>
      destruct (Rge_dec x y); [try (exfalso; lra)|try (exfalso; lra)]
  end.

Lemma dice_speed x y k n : (n = 1 \/ n = - (1)) ->
  (x = 1 /\ y = 0 /\ k = 1 / 2 \/ x = 0 /\ y = 1 /\ k = 0) ->
  sc_wavespeed (Scalar.burgers (1 / 8)) true false [k] 1 x y (fun _ => n) = 1 / 2 + 1 / 10 * x.
Proof.
  intros Hn Hx. unfold sc_wavespeed, sc_compute, enforce_entropy, construct_flux_tensor, construct_flux_gradient_tensor, sc_precomputed, sc_flux,
    kruzkov_entropy, kruzkov_entropy_derivative, dot, rsum.
  cbn -[Rabs Rmax]. destruct Hn as [-> | ->]; destruct Hx as [(-> & -> & ->)|(-> & -> & ->)].
  all: dec_r.
  all: rewrite ?(Rmax_left (1 - 0) (2 * (1 / 8))) by lra.
  all: rewrite ?(Rmax_left (- (0 - 1)) (2 * (1 / 8))) by lra.
  all: match goal with
    | |- Rmax (Rmax ?a ?b) ?c = 1 / 2 + 1 / 10 * 1 =>
        replace a with (1 / 2) by field; replace b with (3 / 5) by field; replace c with (1 / 5) by field
    | |- Rmax (Rmax ?a ?b) ?c = 1 / 2 + 1 / 10 * 0 =>
        replace a with (1 / 2) by field; replace b with 0 by field; replace c with (4 / 9) by field
    end.
  1, 3: rewrite (Rmax_right (1 / 2)) by lra; rewrite Rmax_left by lra; field.
  all: rewrite (Rmax_left (1 / 2) 0) by lra; rewrite Rmax_left by lra; field.
Qed.

Lemma dice_wave i j n : (i < 3)%nat -> (j < 3)%nat -> (n = 1 \/ n = - (1)) -> (i = 2 \/ j = 2)%nat -> i <> j ->
  riemann_compute unit (scalar_scheme dice 1) (snd dice_old) (step_U i) (step_U j) i j [n] = 1 / 2 + 1 / 10 * step_U i tt.
Proof.
  intros Hi Hj Hn H2 Hne.
  assert (Ev : forall pi pj, sc_compute (Scalar.burgers (1 / 8)) true false (sp_draws dice i j) 1 (step_U i tt) (step_U j tt) pi pj (vec_of [n]) =
    sc_compute (Scalar.burgers (1 / 8)) true false (sp_draws dice i j) 1 (step_U i tt) (step_U j tt) pi pj (fun _ => n)) by reflexivity.
  change (sc_compute (Scalar.burgers (1 / 8)) true false (sp_draws dice i j) 1 (step_U i tt) (step_U j tt)
     (snd dice_old i) (snd dice_old j) (vec_of [n]) = 1 / 2 + 1 / 10 * step_U i tt).
  rewrite Ev. cbn [sp_draws dice]. destruct H2 as [-> | ->].
  - assert (Hj' : (j = 0 \/ j = 1)%nat) by lia.
    destruct Hj' as [-> | ->]; apply (dice_speed 0 1 0 n Hn); right; repeat split; reflexivity.
  - assert (Hi' : (i = 0 \/ i = 1)%nat) by lia.
    destruct Hi' as [-> | ->]; apply (dice_speed 1 0 (1 / 2) n Hn); left; repeat split; reflexivity.
Qed.

Lemma dice_viscosity nm d0 i j : (i < 3)%nat -> (j < 3)%nat -> (i = 2 \/ j = 2)%nat -> i <> j ->
  dij_matrix (scalar_scheme dice 1) ring3 nm dice_old d0 i j = 1 / 4 + 1 / 20 * step_U i tt.
Proof.
  intros Hi Hj H2 Hne.
  assert (E : dij_matrix (scalar_scheme dice 1) ring3 nm dice_old d0 i j = viscosity (scalar_scheme dice 1) dice_old i j (c_ij ring3 i j)).
  { destruct H2 as [-> | ->].
    - assert (Hj' : (j = 0 \/ j = 1)%nat) by lia. destruct Hj' as [-> | ->]; reflexivity.
    - assert (Hi' : (i = 0 \/ i = 1)%nat) by lia. destruct Hi' as [-> | ->]; reflexivity. }
  rewrite E, viscosity_eq. unfold wave_viscosity.
  assert (C : exists n, (n = 1 \/ n = - (1)) /\ c_ij ring3 i j = [1 / 2 * n]).
  { destruct H2 as [-> | ->].
    - assert (Hj' : (j = 0 \/ j = 1)%nat) by lia.
      destruct Hj' as [-> | ->]; [exists 1|exists (- (1))]; (split; [tauto|]); cbn; f_equal; field.
    - assert (Hi' : (i = 0 \/ i = 1)%nat) by lia.
      destruct Hi' as [-> | ->]; [exists (- (1))|exists 1]; (split; [tauto|]); cbn; f_equal; field. }
  destruct C as (n & Hn & ->). rewrite cnorm_1.
  assert (A : Rabs (1 / 2 * n) = 1 / 2) by (destruct Hn as [-> | ->]; dec_r; lra).
  rewrite A. unfold cdiv. cbn [map]. replace (1 / 2 * n / (1 / 2)) with n by field.
  change (fst dice_old i) with (step_U i). change (fst dice_old j) with (step_U j).
  rewrite (dice_wave i j n Hi Hj Hn H2 Hne). field.
Qed.

Lemma dice_total nm order a0 d0 l0 ln0 new0 stages tau :
  total ring3 (active_rows ring3)
    (fst (hyperbolic_update (scalar_scheme dice 1) ring3 nm order 0 a0 d0 l0 ln0 new0 dice_old stages tau)) tt =
  total ring3 (active_rows ring3) (fst dice_old) tt - tau / 10.
Proof.
  change (fst (hyperbolic_update (scalar_scheme dice 1) ring3 nm order 0 a0 d0 l0 ln0 new0 dice_old stages tau)) with
    (low_order_update (scalar_scheme dice 1) ring3 dice_old (dij_matrix (scalar_scheme dice 1) ring3 nm dice_old d0) tau new0).
  pose proof (dice_viscosity nm d0 0 2 ltac:(lia) ltac:(lia) ltac:(lia) ltac:(lia)) as D02.
  pose proof (dice_viscosity nm d0 1 2 ltac:(lia) ltac:(lia) ltac:(lia) ltac:(lia)) as D12.
  pose proof (dice_viscosity nm d0 2 0 ltac:(lia) ltac:(lia) ltac:(lia) ltac:(lia)) as D20.
  pose proof (dice_viscosity nm d0 2 1 ltac:(lia) ltac:(lia) ltac:(lia) ltac:(lia)) as D21.
  set (d := dij_matrix _ _ _ _ _) in *. clearbody d.
  change (active_rows ring3) with [0; 1; 2]%nat. unfold total. cbn [lsum].
  unfold low_order_update, low_order_flux, jump, source. cbn -[IZR]. unfold splus, smult, szero, sminus, dot, rsum, vadd, construct_flux_tensor, scalar_precomputed, sc_precomputed, vec_of.
  cbn -[IZR]. rewrite D02, D12, D20, D21. unfold step_U. cbn -[IZR]. 
  field.
Qed.

(** *** Flux of KPP *)

(** The ring with vectors c_ij in the plane. *)
Definition ring_plane : mesh := {|
  n_rows := 3; owner := owner ring3; index := index ring3; lanes := lanes ring3; columns := columns ring3;
  mass := mass ring3; mass_inv := mass_inv ring3; mass_ij := mass_ij ring3; mass_ij_inv := mass_ij_inv ring3;
  c_ij := fun i j => ring_c i j ++ [0]; incidence := incidence ring3; coupling_pairs := [];
  measure_of_omega := 3; discontinuous := false |}.

Lemma ring_plane_skew i j : (i < 3)%nat -> (j < 3)%nat -> skew_at ring_plane i j.
Proof.
  intros Hi Hj. unfold skew_at. cbn [c_ij ring_plane]. rewrite (ring_skew i j Hi Hj). unfold neg. rewrite map_app. cbn. rewrite Ropp_0. reflexivity.
Qed.

Lemma ring_plane_setting : symmetric_pattern ring_plane /\ positive_masses ring_plane /\ valid_numbering ring_plane /\ pairs_listed ring_plane /\
  (forall i, active ring_plane i -> zero_row_sum ring_plane i).
Proof.
  split; [exact ring3_pattern|]. split; [exact ring3_masses|]. split; [exact ring3_numbering|]. split.
  - intros i j [Hi _] Hj Hne. left. apply ring_plane_skew; [exact Hi|]. apply (uniform_columns ring3 ring3_pattern i j Hi Hj).
  - intros i [Hi _] x. cbn [n_rows ring_plane] in Hi. rows3 i Hi; cbn [columns ring_plane ring3 lsum c_ij]; cbn;
    destruct x as [|[|[|x]]]; cbn; lra.
Qed.

Definition kpp_params (greedy : bool) (delta : R) : sparameters :=
  {| sp_flux := kpp delta; sp_greedy := greedy; sp_averaged := true; sp_draws := fun _ _ => [];
     sp_eps := 0; sp_tiny := 1 / 1000; sp_big := 1000; sp_relaxation := 0; sp_evc := 1 |}.
Definition kpp_U (delta : R) : nat -> state unit := fun i _ => if (i =? 1)%nat then delta / 2 else - (delta / 2).
Definition kpp_old greedy delta : (nat -> state unit) * PC unit (scalar_scheme (kpp_params greedy delta) 2) :=
  (kpp_U delta, scalar_precomputed (kpp_params greedy delta) 2 ring_plane (kpp_U delta) (fun _ _ => 0)).

Lemma kpp_viscosity greedy delta nm d0 : 0 < delta <= 1 ->
  delta / 2 * (2 * dij_matrix (scalar_scheme (kpp_params greedy delta) 2) ring_plane nm (kpp_old greedy delta) d0 0 1) < sin (delta / 2).
Proof.
  intros Hd.
  assert (E : dij_matrix (scalar_scheme (kpp_params greedy delta) 2) ring_plane nm (kpp_old greedy delta) d0 0 1
            = viscosity (scalar_scheme (kpp_params greedy delta) 2) (kpp_old greedy delta) 0 1 (c_ij ring_plane 0 1)) by reflexivity.
  rewrite E, viscosity_eq. unfold wave_viscosity. cbn [c_ij ring_plane]. change (ring_c 0 1 ++ [0]) with [1 / 2; 0].
  assert (C : cnorm [1 / 2; 0] = 1 / 2).
  { unfold cnorm. cbn [fold_right]. replace (1 / 2 * (1 / 2) + (0 * 0 + 0)) with (Rsqr (1 / 2)) by (unfold Rsqr; ring).
    apply sqrt_Rsqr. lra. }
  rewrite C.
  assert (N : cdiv [1 / 2; 0] (1 / 2) = [1; 0]) by (unfold cdiv; cbn; f_equal; [field|f_equal; field]).
  rewrite N.
  change (riemann_compute unit (scalar_scheme (kpp_params greedy delta) 2) (snd (kpp_old greedy delta)) (fst (kpp_old greedy delta) 0%nat) (fst (kpp_old greedy delta) 1%nat) 0 1 [1; 0])
    with (sc_wavespeed (kpp delta) greedy true [] 2 (- (delta / 2)) (delta / 2) (vec_of [1; 0])).
  destruct (kpp_violation greedy delta Hd) as [V1 V2]. cbv zeta in V1, V2.
  set (c := fun k : nat => match k with O => 1 | _ => 0 end) in *.
  assert (S1 : sqrt (norm2 2 c) = 1) by (replace (norm2 2 c) with 1 by (unfold norm2, dot, rsum, c; simpl; ring); apply sqrt_1).
  assert (V : vec_of [1; 0] = vscal (/ 1) c).
  { apply functional_extensionality. intros [|[|[|k]]]; unfold vec_of, vscal, c; cbn; field. }
  rewrite V. rewrite S1, Rmult_1_l in V1, V2.
  set (l := sc_wavespeed _ _ _ _ _ _ _ _) in *. clearbody l.
  unfold sc_bar_state, dot, rsum, sc_flux, vscal, kpp, vsub, c in V2. cbn in V2. rewrite sin_neg, cos_neg in V2.
  set (s := sin (delta / 2)) in *. clearbody s.
  assert (B : - s / l < - (delta / 2)).
  { match type of V2 with ?a < _ => replace a with (- s / l) in V2 by (field; lra) end. exact V2. }
  apply (Rmult_lt_compat_r l) in B; [|exact V1]. replace (- s / l * l) with (- s) in B by (field; lra). nra.
Qed.

Lemma C115_kpp_refuted_proof : forall greedy delta, 0 < delta <= 1 ->
  exists M (old : (nat -> state unit) * PC unit (scalar_scheme (kpp_params greedy delta) 2)) pc0 num_min cfl tau,
    symmetric_pattern M /\ positive_masses M /\ valid_numbering M /\ pairs_listed M /\
    (forall i, active M i -> zero_row_sum M i) /\
    snd old = scalar_precomputed (kpp_params greedy delta) 2 M (fst old) pc0 /\
    0 < num_min /\ 0 < cfl <= 1 /\ 0 <= tau /\
    (forall d0 t, In t (row_tau (scalar_scheme (kpp_params greedy delta) 2) M num_min cfl old d0) -> tau <= t) /\
    (forall j, (j < n_rows M)%nat -> - (delta / 2) <= fst old j tt <= delta / 2) /\
    exists i, active M i /\ forall order a0 d0 l0 ln0 new0 stages,
      fst (hyperbolic_update (scalar_scheme (kpp_params greedy delta) 2) M num_min order 0 a0 d0 l0 ln0 new0 old stages tau) i tt < - (delta / 2).
Proof.
  intros greedy delta Hd. destruct ring_plane_setting as (S1 & S2 & S3 & S4 & S5).
  assert (DI : forall d0, row_tau (scalar_scheme (kpp_params greedy delta) 2) ring_plane (1 / 10000) 1 (kpp_old greedy delta) d0 =
    row_tau (scalar_scheme (kpp_params greedy delta) 2) ring_plane (1 / 10000) 1 (kpp_old greedy delta) (fun _ _ => 0)) by (intros; reflexivity).
  destruct (step_exists (scalar_scheme (kpp_params greedy delta) 2) ring_plane (1 / 10000) 1 (kpp_old greedy delta) (fun _ _ => 0) S1 S2 ltac:(lra) ltac:(lra)) as (tau & Ht & Hs).
  exists ring_plane, (kpp_old greedy delta), (fun _ _ => 0), (1 / 10000), 1, tau.
  split; [exact S1|]. split; [exact S2|]. split; [exact S3|]. split; [exact S4|]. split; [exact S5|]. split; [reflexivity|].
  split; [lra|]. split; [lra|]. split; [lra|]. split; [intros d0 t; rewrite DI; apply Hs|]. split.
  { intros j _. cbn. unfold kpp_U. destruct (j =? 1)%nat; lra. }
  exists 0%nat. split; [apply active_constrained; split; [cbn; lia|reflexivity]|]. intros order a0 d0 l0 ln0 new0 stages.
  change (fst (hyperbolic_update (scalar_scheme (kpp_params greedy delta) 2) ring_plane (1 / 10000) order 0 a0 d0 l0 ln0 new0 (kpp_old greedy delta) stages tau)) with
    (low_order_update (scalar_scheme (kpp_params greedy delta) 2) ring_plane (kpp_old greedy delta)
      (dij_matrix (scalar_scheme (kpp_params greedy delta) 2) ring_plane (1 / 10000) (kpp_old greedy delta) d0) tau new0).
  pose proof (kpp_viscosity greedy delta (1 / 10000) d0 Hd) as K.
  set (d := dij_matrix _ _ _ _ _) in *. clearbody d.
  unfold low_order_update, low_order_flux, jump, source. cbn -[IZR]. unfold splus, smult, szero, sminus, dot, rsum, vadd, construct_flux_tensor, scalar_precomputed, sc_precomputed, vec_of.
  cbn -[IZR]. unfold kpp_U. cbn -[IZR]. rewrite sin_neg, cos_neg, Rinv_1.
  set (s := sin (delta / 2)) in *. clearbody s. nra.
Qed.

(** *** The hypotheses of the other theorems *)

Lemma water_fast : zero_or_fast water 1 ring3 (1 / 10000) water_old (fun _ _ => 0).
Proof.
  intros i j [Hi _] Hj. right. cbn [n_rows ring3] in Hi.
  assert (Hjb : (j < 3)%nat /\ j <> i) by (destruct (neighbours_bound ring3 i j ring3_pattern Hi Hj) as (A & B & C); split; [exact A|exact (not_eq_sym C) || exact C]).
  destruct Hjb as [Hjb Hne].
  rewrite (dij_value (scalar_scheme water 1) ring3 (1 / 10000) water_old (fun _ _ => 0) i j ring3_pattern ring3_numbering ring3_pairs
    (scalar_symmetric water 1 ring3 water_old (fun _ _ => eq_refl)) Hi Hj).
  eapply Rle_trans; [|apply Rmax_l]. unfold wave_viscosity.
  assert (C : exists n, (n = 1 \/ n = - (1)) /\ c_ij ring3 i j = [1 / 2 * n]).
  { rows3 i Hi; rows3 j Hjb; try congruence; cbn;
      first [exists 1; split; [tauto|f_equal; field]|exists (- (1)); split; [tauto|f_equal; field]]. }
  destruct C as (n & Hn & ->). rewrite cnorm_1.
  assert (A : Rabs (1 / 2 * n) = 1 / 2) by (destruct Hn as [-> | ->]; dec_r; lra).
  rewrite A. unfold cdiv. cbn [map]. replace (1 / 2 * n / (1 / 2)) with n by field.
  rewrite (s_wavespeed water 1 ring3 water_old (fun _ _ => 0) eq_refl i j [n] (ring3_active i Hi) (ring3_active j Hjb)).
  change (fst water_old) with step_U. cbn [sp_flux sp_greedy sp_averaged sp_draws water].
  assert (L : 1 <= sc_wavespeed (Scalar.burgers (1 / 8)) false true [] 1 (step_U i tt) (step_U j tt) (vec_of [n])).
  { assert (Q : Rabs (dflux_n (Scalar.burgers (1 / 8)) 1 (vec_of [n]) 1) = 1).
    { rewrite burgers_dflux_n. unfold rsum, vec_of. cbn. destruct Hn as [-> | ->]; dec_r; lra. }
    rewrite <- Q at 1. apply convex_speed; [apply burgers_convex|].
    rows3 i Hi; rows3 j Hjb; try congruence; unfold step_U; cbn -[Rmin Rmax];
      repeat match goal with
      | |- context [Rmin ?x ?y] => first [rewrite (Rmin_left x y) by lra | rewrite (Rmin_right x y) by lra]
      | |- context [Rmax ?x ?y] => first [rewrite (Rmax_left x y) by lra | rewrite (Rmax_right x y) by lra] end; lra. }
  lra.
Qed.

Lemma water_step : exists tau, 0 < tau /\
  forall t, In t (row_tau (scalar_scheme water 1) ring3 (1 / 10000) 1 water_old (fun _ _ => 0)) -> tau <= t.
Proof. apply step_exists; [exact ring3_pattern|exact ring3_masses|lra|lra]. Qed.

Lemma step_values : values_in ring3 0 1 step_U.
Proof. intros i _. unfold step_U. destruct (i =? 2)%nat; lra. Qed.

Lemma water_run : exists U, U 0%nat tt <> step_U 0%nat tt /\
  scalar_run water 1 ring3 (1 / 10000) 1 [0; 1; 2]%nat (fun x => x = 1 / 2) step_U U.
Proof.
  destruct water_step as (tau & Ht & Hs).
  eexists. split; [|eapply run_boundary with (entries := [(0%nat, dirichlet, 1 / 2)]); [|intros i id data [E|[]] _; inversion E; reflexivity|reflexivity]].
  2: eapply (run_step water 1 ring3 (1 / 10000) 1 [0; 1; 2]%nat (fun x => x = 1 / 2) step_U step_U (fun _ _ => []) 2 (fun _ => 0) (fun _ _ => 0) (fun _ _ => 0) (fun _ _ => 0) (fun _ _ => 0) (fun _ _ => 0) [] tau);
     [apply run_start|lia|apply water_estimated|exact water_fast|lra|exact Hs].
  cbn -[IZR]. unfold step_U. cbn. lra.
Qed.

Lemma C114_ranks_refuted_proof :
  exists p M (old : (nat -> state unit) * PC unit (scalar_scheme p 1)) pc0 num_min cfl tau,
    (forall i j, exists x, sp_draws p i j = [x] /\ 0 <= x <= 1) /\
    symmetric_pattern M /\ positive_masses M /\ valid_numbering M /\ symmetric_matrices M /\ pairs_listed M /\
    (forall i j, active M i -> In j (columns M i) -> skew_at M i j) /\
    snd old = scalar_precomputed p 1 M (fst old) pc0 /\
    0 < num_min /\ 0 < cfl <= 1 /\ 0 < tau /\
    (forall d0 t, In t (row_tau (scalar_scheme p 1) M num_min cfl old d0) -> tau <= t) /\
    forall order a0 d0 l0 ln0 new0 stages,
    total M (active_rows M) (fst (hyperbolic_update (scalar_scheme p 1) M num_min order 0 a0 d0 l0 ln0 new0 old stages tau)) tt <
    total M (active_rows M) (fst old) tt.
Proof.
  destruct (step_exists (scalar_scheme dice 1) ring3 (1 / 10000) 1 dice_old (fun _ _ => 0) ring3_pattern ring3_masses ltac:(lra) ltac:(lra)) as (tau & Ht & Hs).
  exists dice, ring3, dice_old, (fun _ _ => 0), (1 / 10000), 1, tau.
  split. { intros i j. cbn [sp_draws dice]. destruct (i =? 2)%nat; eexists; (split; [reflexivity|lra]). }
  split; [exact ring3_pattern|]. split; [exact ring3_masses|]. split; [exact ring3_numbering|]. split; [exact ring3_symmetric|].
  split; [exact ring3_pairs|]. split; [exact ring3_skew|]. split; [reflexivity|]. split; [lra|]. split; [lra|]. split; [exact Ht|].
  split; [exact (fun d0 t H => Hs t H)|]. intros. rewrite dice_total. lra.
Qed.

Lemma C114_setting :
  symmetric_pattern ring3 /\ positive_masses ring3 /\ valid_numbering ring3 /\ symmetric_matrices ring3 /\ pairs_listed ring3 /\
  (forall i j, active ring3 i -> In j (columns ring3 i) -> skew_at ring3 i j) /\
  (forall i j, sp_draws water j i = map (fun x => 1 - x) (sp_draws water i j)) /\
  (exists i j, (i < n_rows ring3)%nat /\ (j < n_rows ring3)%nat /\ owner ring3 i <> owner ring3 j).
Proof.
  split; [exact ring3_pattern|]. split; [exact ring3_masses|]. split; [exact ring3_numbering|]. split; [exact ring3_symmetric|].
  split; [exact ring3_pairs|]. split; [exact ring3_skew|]. split; [reflexivity|].
  exists 0%nat, 2%nat. cbn. repeat split; lia.
Qed.

Lemma C114_one_setting :
  symmetric_pattern ring3' /\ positive_masses ring3' /\ valid_numbering ring3' /\ symmetric_matrices ring3' /\
  (forall i j, active ring3' i -> In j (columns ring3' i) -> skew_at ring3' i j) /\
  (forall i j, (i < n_rows ring3')%nat -> (j < n_rows ring3')%nat -> owner ring3' i = owner ring3' j).
Proof.
  split; [exact ring3'_pattern|]. split. { intros i Hi. cbn. split; [lra|reflexivity]. } split; [exact ring3'_numbering|].
  split; [intros i j Hi Hj; cbn; rewrite (Nat.eqb_sym j i); auto|]. split; [|reflexivity].
  intros i j [Hi _] Hj. unfold skew_at. cbn [c_ij ring3']. apply ring_skew; [exact Hi|].
  apply (uniform_columns ring3' ring3'_pattern i j Hi Hj).
Qed.

Lemma C115_setting : 
  well_estimated water 1 ring3 (fst water_old) /\ step_U 0%nat tt <> step_U 2%nat tt /\
  (forall i, active ring3 i -> zero_row_sum ring3 i) /\
  snd water_old = scalar_precomputed water 1 ring3 (fst water_old) (fun _ _ => 0) /\
  exists tau, 0 < tau /\
  forall t, In t (row_tau (scalar_scheme water 1) ring3 (1 / 10000) 1 water_old (fun _ _ => 0)) -> tau <= t.
Proof.
  split; [apply water_estimated|]. split; [unfold step_U; cbn; lra|]. split; [intros i [Hi _]; apply ring3_sum, Hi|].
  split; [reflexivity|exact water_step].
Qed.

(** Widely separated values: also the flux of KPP is covered. *)
Lemma C115_separated : well_estimated (kpp_params true (1 / 10)) 2 ring_plane (fun i _ => if (i =? 1)%nat then 1 else 0).
Proof.
  right. split; [cbn; lra|]. intros i j _ _. cbn [fl_delta sp_flux kpp_params kpp].
  destruct (i =? 1)%nat, (j =? 1)%nat; [left; reflexivity|right|right|left; reflexivity].
  - rewrite Rabs_right; lra.
  - rewrite Rabs_left; lra.
Qed.

Lemma C116_setting : 
  zero_or_fast water 1 ring3 (1 / 10000) water_old (fun _ _ => 0) /\
  forall tau order i, active ring3 i ->
    0 <= u_max (limiter_bounds_i (scalar_scheme water 1) ring3 (1 / 10000) water_old
      (dij_matrix (scalar_scheme water 1) ring3 (1 / 10000) water_old (fun _ _ => 0)) tau order i).
Proof.
  split; [exact water_fast|]. intros tau order i Ha.
  assert (Hii : In i (columns ring3 i)) by (rewrite (columns_split ring3 i ring3_pattern (proj1 Ha)); left; reflexivity).
  pose proof (s_contains water 1 ring3 (1 / 10000) water_old (fun _ _ => 0) tau ring3_pattern ltac:(cbn; lra) ltac:(cbn; lra) i i Ha Hii) as W.
  apply (s_wider water 1 ring3 (1 / 10000) water_old (fun _ _ => 0) tau order i) in W. unfold value_inside in W.
  rewrite s_bar_diag in W. destruct (step_values i Ha) as [A _]. change (fst water_old) with step_U in W. lra.
Qed.
