From Coq Require Import Reals List Arith Bool Lia Lra FunctionalExtensionality.
From Verif Require Import RVec EulerSystem Scalar ScalarSpec ScalarProofs ScalarScheme ScalarSchemeSpec ScalarSchemeProofs ScalarSchemeBounds ScalarSchemeFinal
  SWScheme SWSchemeDepth SchemeSpec SchemeProofs SchemeLimit SchemeFinal
  TimeInt TimeIntSpec TimeIntProofs EulerRun EulerRunSpec EulerRunProofs EulerRunFinal RunLib ScalarRun ScalarRunSpec.
From Verif Require Import Scheme.
Import ListNotations.
Local Open Scope R_scope.

(** ** Substeps keep the interval *)
Section Interval.
Variables (p : sparameters) (dim : nat) (M : mesh) (nm a b : R)
  (entries : list bentry) (data : RVec.vec -> R -> R) (order : list nat) (n : nat).
Hypothesis HI : interval_setting p M nm a b entries data order n.
Variable tmp : sc_vector -> sc_temporaries.
Local Notation inside v := (values_in M a b (fst v)).
Local Notation prep := (sc_prepare p dim M entries data).
Local Notation rows := (sc_rows p dim M nm tmp).
Local Notation hyp := (sc_update p dim M nm order n tmp).

Lemma boundary_in t l U : Forall (entry_in a b data) l -> values_in M a b U -> values_in M a b (sc_apply_boundary l data t U).
Proof using Type.
  unfold sc_apply_boundary. intros H. revert U. induction H as [|e l He _ IH]; intros U HU; [exact HU|].
  cbn [fold_left]. apply IH. unfold entry_in in He.
  assert (G : forall u, a <= u <= b -> values_in M a b (upd U (be_row e) (fun _ => u))).
  { intros u Hu k Hk. unfold upd. destruct (Nat.eqb_spec k (be_row e)); [exact Hu|apply HU, Hk]. }
  assert (G2 : values_in M a b (upd U (be_row e) (fun _ => U (be_row e) tt))).
  { intros k Hk. unfold upd. destruct (Nat.eqb_spec k (be_row e)) as [E|]; [subst k|]; apply HU, Hk. }
  destruct (be_id e); try contradiction; cbn [sc_apply_boundary_conditions]; try exact HU; try exact G2.
  apply G, He.
Qed.
Lemma interval_prepare t v : inside v -> inside (prep t v).
Proof using HI. intros H. apply boundary_in; [apply HI|exact H]. Qed.
Lemma interval_sadd x y v w : 0 <= x -> 0 <= y -> x + y = 1 -> inside v -> inside w -> inside (sc_sadd v x y w).
Proof using Type.
  intros Hx Hy E Hv Hw i Hi. specialize (Hv i Hi). specialize (Hw i Hi). unfold sc_sadd. cbn [fst]. unfold splus, smult. 
  assert (x = 1 - y) by lra. subst x. nra.
Qed.

Lemma rows_fine cfl v : 0 < cfl -> rows cfl v <> [] /\ Forall (fun x => 0 < x) (rows cfl v).
Proof using HI.
  destruct HI as (Hpat & Hm & Hnum & Hpairs & Hsum & (i & Hi) & _ & _ & Hnm & _). intros Hc. split.
  - intros E. unfold sc_rows, row_tau in E. apply map_eq_nil in E.
    assert (A : In i (active_rows M)) by (apply active_spec, Hi). rewrite E in A. destruct A.
  - apply Forall_forall. intros x Hx. eapply (row_tau_positive (scalar_scheme (with_draws p (sct_draws (tmp v))) dim) M nm cfl v); eassumption.
Qed.

Section Substep.
Variables (cfl tau : R) (o : sc_vector) (st : list (sc_vector * R)) (pc0 : nat -> RVec.vec).
Local Notation q := (with_draws p (sct_draws (tmp o))).
Hypothesis Hc : 0 < cfl <= 1.
Hypothesis Ht : 0 < tau.
Hypothesis Hstep : forall r, In r (rows cfl o) -> tau <= r.
Hypothesis Hpc : snd o = scalar_precomputed p dim M (fst o) pc0.
Hypothesis Hest : well_estimated q dim M (fst o).
Hypothesis Hfast : zero_or_fast q dim M nm o (sct_d (tmp o)).

Lemma substep_in : inside o -> inside (fst (hyp o st tau)).
Proof using HI Hc Ht Hstep Hpc Hest Hfast.
  destruct HI as (Hpat & Hm & Hnum & Hpairs & Hsum & _ & Ho & Hn & Hnm & He & Hti & Hr & H1 & H2 & HE & _). intros Hv.
  unfold sc_update. cbv zeta. cbn [fst].
  apply (s_interval q dim M nm o pc0 (sct_d (tmp o)) cfl tau Hpat Hnum Hpairs Hpc Hest Hm Hnm Hc (Rlt_le _ _ Ht) Hstep Hsum He ltac:(cbn; lra) Hfast); assumption.
Qed.
Lemma substep_verdict : snd (hyp o st tau) = false.
Proof using HI Hc Ht Hstep Hpc Hest Hfast.
  destruct HI as (Hpat & Hm & Hnum & Hpairs & Hsum & _ & Ho & Hn & Hnm & He & Hti & Hr & H1 & H2 & HE & _).
  unfold sc_update. cbv zeta. cbn [snd].
  destruct (snd (hyperbolic_update _ _ _ _ _ _ _ _ _ _ _ _ _)) eqn:E; [|reflexivity]. exfalso.
  unfold hyperbolic_update, update in E. cbn [snd] in E. apply restart_spec in E. destruct E as [E1 (i & j & Hi & Hj & E2)].
  apply (s_verdict q dim M nm o pc0 (sct_d (tmp o)) cfl tau Hpat Hnum Hpairs Hpc Hest Hm Hnm Hc (Rlt_le _ _ Ht) Hstep Hsum He ltac:(cbn; lra) Hfast order n (sct_a (tmp o)) (sct_new (tmp o)) st).
  split; [exact E1|]. exists i, j. split; [exact Hi|]. destruct (neighbours_columns M i j Hpat (proj1 Hi) Hj) as [Q1 Q2]. auto.
Qed.
End Substep.
End Interval.

(** ** Linear transport: the speed estimate does not depend on the states *)
Section Transport.
Variables (F : Scalar.flux) (dim : nat) (w : RVec.vec).
Hypothesis HF : transport F dim w.

Lemma rsum_ext m f g : (forall k, (k < m)%nat -> f k = g k) -> rsum m f = rsum m g.
Proof using Type. induction m as [|m IH]; intros H; cbn [rsum]; [reflexivity|]. rewrite IH, H by (intros; try apply H; lia). reflexivity. Qed.
Lemma transport_flux n u : RVec.dot dim (sc_flux F u) n = RVec.dot dim (sc_flux F 0) n + u * RVec.dot dim w n.
Proof using HF.
  destruct HF as [_ H]. unfold RVec.dot, sc_flux. assert (G : forall m, (m <= dim)%nat -> rsum m (fun k => fl_value F u k * n k) = rsum m (fun k => fl_value F 0 k * n k) + u * rsum m (fun k => w k * n k)); [|apply G; lia].
  induction m as [|m IH]; intros Hm; cbn [rsum]; [ring|]. rewrite IH by lia. rewrite (proj1 (H u m Hm)). ring.
Qed.

Lemma enforce_transport n h2 u v l k : 0 < h2 -> Rabs (RVec.dot dim w n) <= l ->
  enforce_entropy F dim n h2 u v (RVec.dot dim (sc_flux F u) n) (RVec.dot dim (sc_flux F v) n) l k = l.
Proof using HF.
  intros Hh Hl. unfold enforce_entropy. cbv zeta. rewrite (transport_flux n u), (transport_flux n v), (transport_flux n k).
  set (x := RVec.dot dim w n) in *. set (g := RVec.dot dim (sc_flux F 0) n). clearbody x g.
  unfold kruzkov_entropy, kruzkov_entropy_derivative.
  assert (B : forall A B, Rabs A <= Rabs x * B -> Rabs A / (Rabs B + h2) <= l).
  { intros A B H. assert (0 <= Rabs B) by apply Rabs_pos. apply (Rmult_le_reg_r (Rabs B + h2)); [lra|].
    unfold Rdiv. rewrite Rmult_assoc, Rinv_l, Rmult_1_r by lra. pose proof (Rabs_pos x). pose proof (Rle_abs B). nra. }
  rewrite (Rmax_left l), Rmax_left; [reflexivity| |]; apply B.
  - assert (E : forall A, Rabs A <= Rabs x * (Rabs (k - u) + Rabs (k - v) - (u + v - 2 * k)) <-> Rabs A <= Rabs x * (Rabs (k - u) + Rabs (k - v) - (u + v - 2 * k))) by tauto.
    destruct (Rge_dec u k), (Rge_dec v k);
    repeat match goal with |- context [Rabs (k - ?u)] => first [rewrite (Rabs_pos_eq (k - u)) by lra | rewrite (Rabs_left1 (k - u)) by lra] end.
    + replace (1 * _ - _ - _) with 0 by ring. rewrite Rabs_R0. replace (- (k - u) + - (k - v) - (u + v - 2 * k)) with 0 by ring. lra.
    + replace (_ - _ - _) with (x * (2 * (k - v))) by ring. rewrite Rabs_mult, (Rabs_pos_eq (2 * (k - v))) by lra. right. ring.
    + replace (_ - _ - _) with (x * (- (2 * (k - u)))) by ring. rewrite Rabs_mult, Rabs_Ropp, (Rabs_pos_eq (2 * (k - u))) by lra. right. ring.
    + replace (_ - _ - _) with (x * (2 * (u - v))) by ring. rewrite Rabs_mult. apply Rmult_le_compat_l; [apply Rabs_pos|].
      apply Rabs_le. lra.
  - destruct (Rge_dec u k), (Rge_dec v k);
    repeat match goal with |- context [Rabs (k - ?u)] => first [rewrite (Rabs_pos_eq (k - u)) by lra | rewrite (Rabs_left1 (k - u)) by lra] end.
    + replace (_ - _ + _) with (x * (2 * (v - u))) by ring. rewrite Rabs_mult. apply Rmult_le_compat_l; [apply Rabs_pos|].
      apply Rabs_le. lra.
    + replace (_ - _ + _) with (x * (- (2 * (u - k)))) by ring. rewrite Rabs_mult, Rabs_Ropp, (Rabs_pos_eq (2 * (u - k))) by lra. right. ring.
    + replace (_ - _ + _) with (x * (2 * (v - k))) by ring. rewrite Rabs_mult, (Rabs_pos_eq (2 * (v - k))) by lra. right. ring.
    + replace (-1 * _ - _ + _) with 0 by ring. rewrite Rabs_R0. replace (k - u + (k - v) + (u + v - 2 * k)) with 0 by ring. lra.
Qed.

Lemma transport_speed greedy averaged draws u v n : sc_wavespeed F greedy averaged draws dim u v n = Rabs (RVec.dot dim w n).
Proof using HF.
  unfold sc_wavespeed, sc_compute. cbv zeta. pose proof (proj1 HF) as Hd.
  assert (P : forall z, RVec.dot dim (construct_flux_tensor dim (sc_precomputed F dim z)) n = RVec.dot dim (sc_flux F z) n).
  { intros z. apply rsum_ext. intros k Hk. unfold construct_flux_tensor, sc_precomputed. rewrite (proj2 (Nat.ltb_lt k dim) Hk). reflexivity. }
  assert (Q : forall z, RVec.dot dim (construct_flux_gradient_tensor dim (sc_precomputed F dim z)) n = RVec.dot dim w n).
  { intros z. apply rsum_ext. intros k Hk. unfold construct_flux_gradient_tensor, sc_precomputed.
    rewrite (proj2 (Nat.ltb_ge (dim + k) dim)) by lia. replace (dim + k - dim)%nat with k by lia. unfold sc_flux_gradient.
    rewrite (proj2 (proj2 HF z k Hk)). reflexivity. }
  rewrite !P, !Q. set (x := RVec.dot dim w n) in *. set (h2 := 2 * fl_delta F). assert (Hh : 0 < h2) by (unfold h2; lra).
  assert (E0 : Rabs (RVec.dot dim (sc_flux F u) n - RVec.dot dim (sc_flux F v) n) = Rabs x * Rabs (u - v)).
  { rewrite (transport_flux n u), (transport_flux n v). fold x. rewrite <- Rabs_mult. f_equal. ring. }
  match goal with |- fold_left _ _ ?l0 = _ => assert (E : l0 = Rabs x) end.
  { match goal with |- (if _ then ?A else ?B) = _ => assert (E : B = Rabs x) end.
    { destruct greedy.
      - destruct (Rge_dec (Rabs (u - v)) h2) as [G|G].
        + rewrite E0. rewrite Rmax_left by lra. field. lra.
        + f_equal. field.
      - assert (G : Rabs (RVec.dot dim (sc_flux F u) n - RVec.dot dim (sc_flux F v) n) / Rmax (Rabs (u - v)) h2 <= Rabs x).
        { rewrite E0. pose proof (Rmax_l (Rabs (u - v)) h2). pose proof (Rmax_r (Rabs (u - v)) h2). pose proof (Rabs_pos x).
          set (m := Rmax (Rabs (u - v)) h2) in *. apply (Rmult_le_reg_r m); [lra|]. unfold Rdiv. rewrite Rmult_assoc, Rinv_l, Rmult_1_r by lra. nra. }
        rewrite (Rmax_right _ (Rabs x) G). apply Rmax_left, Rle_refl. }
    rewrite E. destruct averaged; [|reflexivity]. apply enforce_transport; [exact Hh|apply Rle_refl]. }
  rewrite E. clear E E0. induction draws as [|d draws IH]; [reflexivity|]. cbn [fold_left].
  rewrite enforce_transport; [apply IH|exact Hh|apply Rle_refl].
Qed.

Lemma transport_convex n u v : convex_between F dim n u v.
Proof using HF.
  assert (D : forall z, dflux_n F dim n z = RVec.dot dim w n).
  { intros z. apply rsum_ext. intros k Hk. rewrite (proj2 (proj2 HF z k Hk)). reflexivity. }
  split.
  - intros z _. rewrite D. intros e He. exists (mkposreal 1 Rlt_0_1). intros h Hh _.
    pose proof (transport_flux n (z + h)) as A. pose proof (transport_flux n z) as B.
    unfold flux_n, RVec.dot, sc_flux in *. rewrite A, B. fold (RVec.dot dim w n).
    replace (_ / h - _) with 0 by (unfold RVec.dot; field; exact Hh). rewrite Rabs_R0. exact He.
  - left. intros x y _ _. rewrite !D. lra.
Qed.
End Transport.

Lemma same_state_draws F g av f dim u pi pj n : forall draws,
  sc_compute F g av (map f draws) dim u u pi pj n = sc_compute F g av draws dim u u pi pj n.
Proof.
  unfold sc_compute. intros draws. cbv zeta. match goal with |- fold_left _ _ ?l0 = _ => generalize l0 end.
  induction draws as [|x draws IH]; intros l; [reflexivity|]. cbn [map fold_left].
  replace (f x * u + (1 - f x) * u) with (x * u + (1 - x) * u) by ring. apply IH.
Qed.

Lemma dot_cdiv dim w c s : s <> 0 -> RVec.dot dim w (vec_of (cdiv c s)) = RVec.dot dim w (vec_of c) / s.
Proof.
  intros Hs. unfold RVec.dot. induction dim as [|m IH]; cbn [rsum]; [field; exact Hs|]. rewrite IH.
  unfold vec_of. replace (nth m (cdiv c s) 0) with (nth m c 0 / s); [field; exact Hs|].
  unfold cdiv. replace 0 with (0 / s) at 2 by (field; exact Hs). rewrite (map_nth (fun x => x / s)). reflexivity.
Qed.

Section Linear.
Variables (p : sparameters) (dim : nat) (M : mesh) (nm a b : R)
  (entries : list bentry) (data : RVec.vec -> R -> R) (order : list nat) (n : nat) (w : RVec.vec).
Hypothesis HI : interval_setting p M nm a b entries data order n.
Hypothesis HF : transport (sp_flux p) dim w.
Variable tmp : sc_vector -> sc_temporaries.
Local Notation inside v := (values_in M a b (fst v)).
Local Notation prep := (sc_prepare p dim M entries data).
Local Notation rows := (sc_rows p dim M nm tmp).
Local Notation hyp := (sc_update p dim M nm order n tmp).

(** The viscosity of a pair. *)
Definition pair_speed (i j : nat) : R :=
  Rmax (Rabs (RVec.dot dim w (vec_of (c_ij M i j)))) (Rabs (RVec.dot dim w (vec_of (c_ij M j i)))).

Section Vector.
Variables (o : sc_vector) (pc0 : nat -> RVec.vec).
Hypothesis Hpc : snd o = scalar_precomputed p dim M (fst o) pc0.
Local Notation q := (with_draws p (sct_draws (tmp o))).
Local Notation SY := (scalar_scheme q dim).

Lemma linear_compute i j m : active M i -> active M j ->
  riemann_compute unit SY (snd o) (fst o i) (fst o j) i j m = Rabs (RVec.dot dim w (vec_of m)).
Proof using HF Hpc.
  intros Ha Hb. etransitivity; [exact (s_wavespeed q dim M o pc0 Hpc i j m Ha Hb)|]. apply transport_speed, HF.
Qed.

Lemma linear_symmetric : symmetric_riemann SY M o.
Proof using HI HF Hpc.
  destruct HI as (Hpat & _). intros i j Hi Hj Hc m. destruct (Nat.eq_dec i j) as [<-|Ne].
  - cbn [riemann_compute scalar_scheme].
    etransitivity; [symmetry; exact (sc_compute_symmetric q dim (sp_greedy q) (sp_averaged q) (sp_draws q i i) (fst o i tt) (fst o i tt) (snd o i) (snd o i) (vec_of m))|].
    etransitivity; [exact (same_state_draws (sp_flux q) (sp_greedy q) (sp_averaged q) (fun x => 1 - x) dim (fst o i tt) (snd o i) (snd o i) (fun k => - vec_of m k) (sp_draws q i i))|].
    f_equal. apply functional_extensionality. intros k. unfold vec_of. symmetry. apply nth_neg.
  - assert (Hb : active M j) by (exact (cols_active M i j Hpat Hi Hj)).
    pose proof Hi as Ha.
    etransitivity; [exact (linear_compute i j m Ha Hb)|]. etransitivity; [|symmetry; exact (linear_compute j i (neg m) Hb Ha)].
    replace (RVec.dot dim w (vec_of (neg m))) with (- RVec.dot dim w (vec_of m)).
    + symmetry. apply Rabs_Ropp.
    + unfold RVec.dot. clear. induction dim as [|k IH]; cbn [rsum]; [ring|]. rewrite <- IH. unfold vec_of. rewrite nth_neg. ring.
Qed.

Lemma linear_viscosity i j : active M i -> In j (neighbours M i) ->
  dij_matrix SY M nm o (sct_d (tmp o)) i j = pair_speed i j.
Proof using HI HF Hpc.
  intros Ha Hj. pose proof HI as (Hpat & _ & Hnum & Hpairs & _). rewrite (dij_value SY M nm o _ i j Hpat Hnum Hpairs linear_symmetric (proj1 Ha) Hj).
  assert (Hb : active M j) by (exact (col_active M i j Hpat (proj1 Ha) Hj)).
  assert (G : forall i j, active M i -> active M j -> wave_viscosity SY M o i j = Rabs (RVec.dot dim w (vec_of (c_ij M i j)))).
  { clear Ha Hb Hj i j. intros i j Ha Hb. etransitivity; [exact (f_equal (Rmult (cnorm (c_ij M i j))) (linear_compute i j (cdiv (c_ij M i j) (cnorm (c_ij M i j))) Ha Hb))|].
    destruct (Req_dec (cnorm (c_ij M i j)) 0) as [E|E].
    - rewrite E, Rmult_0_l. rewrite (dot_vec_zero dim _ w E). symmetry. apply Rabs_R0.
    - rewrite dot_cdiv by exact E. unfold Rdiv. rewrite Rabs_mult, (Rabs_pos_eq (/ _)).
      + field. exact E.
      + apply Rlt_le, Rinv_0_lt_compat. pose proof (sqrt_pos (fold_right (fun x s => x * x + s) 0 (c_ij M i j))). unfold cnorm in *. lra. }
  rewrite !G by assumption. reflexivity.
Qed.

Lemma linear_rows cfl : rows cfl o =
  map (fun i => cfl * mass M i / (2 * Rmax (lsum (pair_speed i) (neighbours M i)) (1000000 * nm))) (active_rows M).
Proof using HI HF Hpc.
  unfold sc_rows, row_tau. apply map_ext_in. intros i Hi. apply active_spec in Hi. pose proof HI as (Hpat & _).
  rewrite (dij_diag SY M nm o _ i Hpat (proj1 Hi)). rewrite (lsum_ext _ (pair_speed i)).
  - f_equal. ring.
  - intros j Hj. apply linear_viscosity; assumption.
Qed.

Lemma linear_estimated : sp_greedy p = false -> well_estimated q dim M (fst o).
Proof using HF. intros Hg. left. split; [exact Hg|]. intros m u v. apply (transport_convex (sp_flux p) dim w HF). Qed.

Lemma linear_fast : moving dim M nm w -> zero_or_fast q dim M nm o (sct_d (tmp o)).
Proof using HI HF Hpc.
  intros HM i j Ha Hj. rewrite linear_viscosity by assumption. unfold pair_speed.
  destruct (HM i j Ha Hj) as [[E1 E2]|[H|H]].
  - left. rewrite E1, E2, Rabs_R0. apply Rmax_left. lra.
  - right. eapply Rle_trans; [exact H|apply Rmax_l].
  - right. eapply Rle_trans; [exact H|apply Rmax_r].
Qed.
End Vector.

Hypothesis Hg : sp_greedy p = false.
Hypothesis HM : moving dim M nm w.
Variable cfl : R.
Hypothesis Hc : 0 < cfl <= 1.

Lemma linear_RE t t' v v' : inside v -> inside v' -> rows cfl (prep t v) = rows cfl (prep t' v').
Proof using HI HF. intros _ _. rewrite (linear_rows (prep t v) (snd v) eq_refl), (linear_rows (prep t' v') (snd v') eq_refl). reflexivity. Qed.
Lemma linear_AN tau t v st : 0 < tau -> inside v -> (forall r, In r (rows cfl (prep t v)) -> tau <= r) ->
  Forall (fun x => inside (fst x)) st -> inside (fst (hyp (prep t v) st tau)).
Proof using HI HF Hg HM Hc.
  intros Ht Hv Hr _. eapply (substep_in p dim M nm a b entries data order n HI tmp cfl tau (prep t v) st (snd v) Hc Ht Hr eq_refl).
  - apply linear_estimated, Hg.
  - eapply linear_fast; [reflexivity|exact HM].
  - eapply interval_prepare; [exact HI|exact Hv].
Qed.
Lemma linear_AF tau t v st : 0 < tau -> inside v -> (forall r, In r (rows cfl (prep t v)) -> tau <= r) -> snd (hyp (prep t v) st tau) = false.
Proof using HI HF Hg HM Hc.
  intros Ht Hv Hr. eapply (substep_verdict p dim M nm a b entries data order n HI tmp cfl tau (prep t v) st (snd v) Hc Ht Hr eq_refl).
  - apply linear_estimated, Hg.
  - eapply linear_fast; [reflexivity|exact HM].
Qed.
End Linear.

(** ** The theorems *)
Section General.
Variables (p : sparameters) (dim : nat) (M : mesh) (nm a b : R)
  (entries : list bentry) (data : RVec.vec -> R -> R) (order : list nat) (n : nat).
Hypothesis HI : interval_setting p M nm a b entries data order n.
Variable tmp : sc_vector -> sc_temporaries.
Local Notation inside v := (values_in M a b (fst v)).
Local Notation prep := (sc_prepare p dim M entries data).
Local Notation hyp := (sc_update p dim M nm order n tmp).

Lemma careful_AN tau t v st : 0 < tau -> inside v -> sc_suitable p dim M nm tmp tau (prep t v) -> inside (fst (hyp (prep t v) st tau)).
Proof using HI.
  intros Ht Hv (S1 & S2 & S3). eapply (substep_in p dim M nm a b entries data order n HI tmp 1 tau (prep t v) st (snd v)); try eassumption; try reflexivity; try lra.
  eapply interval_prepare; [exact HI|exact Hv].
Qed.
Lemma careful_AF tau t v st : 0 < tau -> inside v -> sc_suitable p dim M nm tmp tau (prep t v) -> snd (hyp (prep t v) st tau) = false.
Proof using HI.
  intros Ht Hv (S1 & S2 & S3). eapply (substep_verdict p dim M nm a b entries data order n HI tmp 1 tau (prep t v) st (snd v)); try eassumption; try reflexivity; try lra.
Qed.
End General.

Lemma C133_step_proof : forall p dim M num_min a b entries data order n tmp sch rec cfl_min cfl_max t t_final s,
  interval_setting p M num_min a b entries data order n ->
  explicit_scheme sch = true -> 0 < cfl_max <= 1 ->
  (rec = bang_bang_control \/ st_cfl _ s = cfl_max) -> t < t_final ->
  values_in M a b (fst (st_vector _ s)) ->
  let h := sc_step_size p dim M num_min entries data tmp sch cfl_max t t_final (st_vector _ s) in
  sc_cautious p dim M num_min entries data order n tmp sch t (st_vector _ s) h ->
  exists s', sc_step p dim M num_min entries data order n tmp sch rec cfl_min cfl_max t t_final s = (Ok h, s') /\
    0 < h /\ counters_eq s s' /\ values_in M a b (fst (st_vector _ s')).
Proof.
  intros p dim M nm a b entries data order n tmp sch rec c0 c1 t tf s HI Hs Hc Hx Ht Hv h Hcau.
  destruct (careful_step sc_vector (sc_prepare p dim M entries data) (sc_rows p dim M nm tmp) (sc_update p dim M nm order n tmp) sc_no_parabolic sc_sadd
    (fun v => values_in M a b (fst v))
    (interval_prepare p dim M nm a b entries data order n HI) (interval_sadd M a b) c1
    (sc_suitable p dim M nm tmp)
    (careful_AN p dim M nm a b entries data order n HI tmp) (careful_AF p dim M nm a b entries data order n HI tmp)
    (fun v => rows_fine p dim M nm a b entries data order n HI tmp c1 v (proj1 Hc))
    sch rec c0 t tf s Hs Hx Ht Hv Hcau) as (s' & Q & A & B & _ & C).
  exists s'. auto.
Qed.

Lemma C133_run_proof : forall p dim M num_min a b entries data order n tmp sch rec cfl_min cfl_max t_final t s t' s',
  interval_setting p M num_min a b entries data order n ->
  explicit_scheme sch = true -> 0 < cfl_max <= 1 ->
  (rec = bang_bang_control \/ st_cfl _ s = cfl_max) ->
  values_in M a b (fst (st_vector _ s)) ->
  steps (fun t => sc_step p dim M num_min entries data order n tmp sch rec cfl_min cfl_max t t_final)
    (fun t s => sc_cautious p dim M num_min entries data order n tmp sch t (st_vector _ s)
                  (sc_step_size p dim M num_min entries data tmp sch cfl_max t t_final (st_vector _ s))) t s t' s' ->
  values_in M a b (fst (st_vector _ s')) /\ counters_eq s s'.
Proof.
  intros p dim M nm a b entries data order n tmp sch rec c0 c1 tf t s t' s' HI Hs Hc Hx Hv H.
  destruct (careful_steps sc_vector (sc_prepare p dim M entries data) (sc_rows p dim M nm tmp) (sc_update p dim M nm order n tmp) sc_no_parabolic sc_sadd
    (fun v => values_in M a b (fst v))
    (interval_prepare p dim M nm a b entries data order n HI) (interval_sadd M a b) c1
    (sc_suitable p dim M nm tmp)
    (careful_AN p dim M nm a b entries data order n HI tmp) (careful_AF p dim M nm a b entries data order n HI tmp)
    (fun v => rows_fine p dim M nm a b entries data order n HI tmp c1 v (proj1 Hc))
    sch rec c0 tf t s t' s' Hs Hx H Hv) as (A & B & _).
  split; assumption.
Qed.

Lemma C133_transport_proof : forall p dim M num_min a b entries data order n w tmp sch rec cfl_min cfl_max t_final t s,
  interval_setting p M num_min a b entries data order n ->
  transport (sp_flux p) dim w -> sp_greedy p = false -> moving dim M num_min w ->
  explicit_scheme sch = true -> 0 < cfl_max <= 1 ->
  (rec = bang_bang_control \/ st_cfl _ s = cfl_max) ->
  values_in M a b (fst (st_vector _ s)) ->
  (t <= t_final -> exists s',
     steps (fun t => sc_step p dim M num_min entries data order n tmp sch rec cfl_min cfl_max t t_final) (fun _ _ => True) t s t_final s') /\
  forall t' s',
    steps (fun t => sc_step p dim M num_min entries data order n tmp sch rec cfl_min cfl_max t t_final) (fun _ _ => True) t s t' s' ->
    counters_eq s s' /\ values_in M a b (fst (st_vector _ s')).
Proof.
  intros p dim M nm a b entries data order n w tmp sch rec c0 c1 tf t s HI HF Hg HM Hs Hc Hx Hv. split.
  - intros Ht.
    destruct (steady_run sc_vector (sc_prepare p dim M entries data) (sc_rows p dim M nm tmp) (sc_update p dim M nm order n tmp) sc_no_parabolic sc_sadd
      (fun v => values_in M a b (fst v))
      (interval_prepare p dim M nm a b entries data order n HI) (interval_sadd M a b) c1
      (linear_AN p dim M nm a b entries data order n w HI HF tmp Hg HM c1 Hc)
      (fun v => rows_fine p dim M nm a b entries data order n HI tmp c1 v (proj1 Hc))
      (linear_RE p dim M nm a b entries data order n w HI HF tmp c1)
      (linear_AF p dim M nm a b entries data order n w HI HF tmp Hg HM c1 Hc) sch rec c0 tf t s Hs Hx Hv Ht) as (s' & Q & _).
    exists s'. exact Q.
  - intros t' s' H.
    destruct (steady_steps sc_vector (sc_prepare p dim M entries data) (sc_rows p dim M nm tmp) (sc_update p dim M nm order n tmp) sc_no_parabolic sc_sadd
      (fun v => values_in M a b (fst v))
      (interval_prepare p dim M nm a b entries data order n HI) (interval_sadd M a b) c1
      (linear_AN p dim M nm a b entries data order n w HI HF tmp Hg HM c1 Hc)
      (fun v => rows_fine p dim M nm a b entries data order n HI tmp c1 v (proj1 Hc))
      (linear_RE p dim M nm a b entries data order n w HI HF tmp c1)
      (linear_AF p dim M nm a b entries data order n w HI HF tmp Hg HM c1 Hc) (fun _ _ => True) sch rec c0 tf t s t' s' Hs Hx H Hv) as [Q1 Q2].
    split; [exact Q2|exact Q1].
Qed.

Lemma C133_speed_proof : forall F dim w greedy averaged draws u v n, transport F dim w ->
  sc_wavespeed F greedy averaged draws dim u v n = Rabs (RVec.dot dim w n).
Proof. intros F dim w greedy averaged draws u v n H. apply transport_speed, H. Qed.

(** ** Conservation *)
Section Total.
Variables (p : sparameters) (dim : nat) (M : mesh) (nm : R) (entries : list bentry) (data : RVec.vec -> R -> R) (order : list nat) (n : nat)
  (tmp : sc_vector -> sc_temporaries).
Hypothesis Hpat : symmetric_pattern M.
Hypothesis Hmass : positive_masses M.
Hypothesis Hnum : valid_numbering M.
Hypothesis Hsym : symmetric_matrices M.
Hypothesis Hskew : forall i j, active M i -> In j (columns M i) -> skew_at M i j.
Hypothesis Hone : forall i j, (i < n_rows M)%nat -> (j < n_rows M)%nat -> owner M i = owner M j.
Hypothesis Hent : Forall (fun e => be_id e <> dirichlet) entries.
Variable V : R.
Local Notation holds v := (total M (active_rows M) (fst v) tt = V).

Lemma boundary_idle t : forall l U, Forall (fun e => be_id e <> dirichlet) l -> forall i, sc_apply_boundary l data t U i tt = U i tt.
Proof using Type.
  unfold sc_apply_boundary. intros l U H. revert U. induction H as [|e l He _ IH]; intros U i; [reflexivity|].
  cbn [fold_left]. rewrite IH. destruct (be_id e); try congruence; cbn [sc_apply_boundary_conditions]; try reflexivity;
  unfold upd; destruct (Nat.eqb_spec i (be_row e)) as [E|]; try reflexivity; rewrite E; reflexivity.
Qed.
Lemma total_prepare t v : holds v -> holds (sc_prepare p dim M entries data t v).
Proof using Hent.
  intros <-. unfold total, sc_prepare. cbv zeta. cbn [fst]. apply lsum_ext. intros i _. rewrite boundary_idle by exact Hent. reflexivity.
Qed.
Lemma total_sadd x y v w : 0 <= x -> 0 <= y -> x + y = 1 -> holds v -> holds w -> holds (sc_sadd v x y w).
Proof using Type.
  intros _ _ E Hv Hw. unfold sc_sadd. cbn [fst].
  assert (L : total M (active_rows M) (fun i => splus (smult x (fst v i)) (smult y (fst w i))) tt
     = x * total M (active_rows M) (fst v) tt + y * total M (active_rows M) (fst w) tt).
  { unfold total. clear. induction (active_rows M) as [|i l IH]; cbn [lsum]; [ring|]. rewrite IH. unfold splus, smult. ring. }
  rewrite L, Hv, Hw, <- Rmult_plus_distr_r, E. ring.
Qed.
Lemma total_update tau t v st : holds v -> holds (fst (sc_update p dim M nm order n tmp (sc_prepare p dim M entries data t v) st tau)).
Proof using Hpat Hmass Hnum Hsym Hskew Hone Hent.
  intros H. unfold sc_update. cbv zeta. cbn [fst].
  set (o := sc_prepare p dim M entries data t v).
  rewrite (C114_one_rank_proof (with_draws p (sct_draws (tmp o))) dim M nm order n (sct_a (tmp o)) (sct_d (tmp o)) (sct_l (tmp o)) (sct_ln (tmp o)) (sct_new (tmp o)) o st tau tt
    Hpat Hmass Hnum Hsym Hskew Hone). apply total_prepare, H.
Qed.
End Total.

Lemma C133_total_proof : forall p dim M num_min entries data order n tmp sch rec cfl_min cfl_max t_final t s t' s',
  symmetric_pattern M -> positive_masses M -> valid_numbering M -> symmetric_matrices M ->
  (forall i j, active M i -> In j (columns M i) -> skew_at M i j) ->
  (forall i j, (i < n_rows M)%nat -> (j < n_rows M)%nat -> owner M i = owner M j) ->
  Forall (fun e => be_id e <> dirichlet) entries ->
  explicit_scheme sch = true ->
  steps (fun t => sc_step p dim M num_min entries data order n tmp sch rec cfl_min cfl_max t t_final) (fun _ _ => True) t s t' s' ->
  total M (active_rows M) (fst (st_vector _ s')) tt = total M (active_rows M) (fst (st_vector _ s)) tt.
Proof.
  intros p dim M nm entries data order n tmp sch rec c0 c1 tf t s t' s' Hpat Hmass Hnum Hsym Hskew Hone Hent Hs H.
  set (V := total M (active_rows M) (fst (st_vector _ s)) tt).
  apply (steps_kept sc_vector (sc_prepare p dim M entries data) (sc_rows p dim M nm tmp) (sc_update p dim M nm order n tmp) sc_no_parabolic sc_sadd
    (fun v => total M (active_rows M) (fst v) tt = V)
    (fun t v => total_prepare p dim M entries data Hent V t v) (total_sadd M V)
    (total_update p dim M nm entries data order n tmp Hpat Hmass Hnum Hsym Hskew Hone Hent V) (fun _ _ => True) sch rec c0 c1 tf t s t' s' Hs H).
  reflexivity.
Qed.

Lemma C133_completes_proof : forall p dim M num_min entries data order n tmp sch cfl_min cfl_max t t_final s,
  symmetric_pattern M -> positive_masses M -> (exists i, active M i) -> 0 < num_min ->
  explicit_scheme sch = true -> 0 < cfl_min -> 0 < cfl_max -> t < t_final ->
  exists h s', sc_step p dim M num_min entries data order n tmp sch bang_bang_control cfl_min cfl_max t t_final s = (Ok h, s') /\
    0 < h <= t_final - t.
Proof.
  intros p dim M nm entries data order n tmp sch c0 c1 t tf s Hpat Hmass (i & Hi) Hnm Hs H0 H1 Ht.
  destruct (progress_pos sc_vector (sc_prepare p dim M entries data) (sc_rows p dim M nm tmp) (sc_update p dim M nm order n tmp) sc_no_parabolic sc_sadd
    sch c0 c1 t tf s) as (h & s' & Q); try assumption.
  - intros cfl v Hc. split.
    + intros E. unfold sc_rows, row_tau in E. apply map_eq_nil in E.
      assert (A : In i (active_rows M)) by (apply active_spec, Hi). rewrite E in A. destruct A.
    + apply Forall_forall. intros x Hx. eapply (row_tau_positive (scalar_scheme (with_draws p (sct_draws (tmp v))) dim) M nm cfl v); eassumption.
  - exists h, s'. split; [exact Q|]. apply step_tau in Q. lra.
Qed.
