From Coq Require Import Reals List Arith Bool Lia Lra FunctionalExtensionality.
From Verif Require Import RVec EulerSystem SWSystem SWRiemann SWLimiter PhysSpec SWScheme SWSchemeSpec SchemeSpec SchemeProofs SchemeLimit SWSchemeDepth SWSchemeRest SWSchemeFinal SWSchemeExamples SchemeFinal EulerSchemeProofs EulerSchemeFinal
  TimeInt TimeIntSpec TimeIntProofs EulerRun EulerRunSpec EulerRunProofs EulerRunFinal RunLib SWRun SWRunSpec.
From Verif Require Import Scheme.
Import ListNotations.
Local Open Scope R_scope.

(** ** Lake at rest *)
Section Lake.
Variables (p : wparameters) (dim : nat) (Z : nat -> R) (M : mesh) (nm level : R)
  (entries : list bentry) (data : RVec.vec -> R -> state nat) (order : list nat).
Hypothesis HL : lake_setting p dim Z M nm level entries data order.
Variable n : nat.
Variable tmp : sw_vector -> temporaries.
Local Notation s := (wp_system p).
Local Notation eps := (wp_eps p).
Local Notation SY := (sw_scheme p dim Z).
Local Notation lake v := (lake_at_rest s eps dim M Z level (fst v)).
Local Notation prep := (sw_prepare p dim M entries data).
Local Notation rows := (sw_rows p dim Z M nm tmp).
Local Notation hyp := (sw_update p dim Z M nm order n tmp).

Lemma still_dot (u : state nat) x : (forall k, (1 <= k <= dim)%nat -> u k = 0) -> RVec.dot dim (w_momentum u) x = 0.
Proof using Type.
  intros H. unfold RVec.dot. assert (G : forall m, (m <= dim)%nat -> rsum m (fun k => w_momentum u k * x k) = 0); [|apply G; lia].
  induction m as [|m IH]; intros Hm; cbn [rsum]; [reflexivity|]. rewrite IH by lia.
  unfold w_momentum. rewrite H by lia. ring.
Qed.

Lemma still_boundary e t (u : state nat) : still_entry s dim Z level data e ->
  u 0%nat = Rmax 0 (level - Z (be_row e)) -> (forall k, (1 <= k <= dim)%nat -> u k = 0) ->
  let v := w_apply_boundary_conditions s eps dim (be_id e) u (be_normal e) (data (be_position e) t) in
  v 0%nat = Rmax 0 (level - Z (be_row e)) /\ forall k, (1 <= k <= dim)%nat -> v k = 0.
Proof using Type.
  intros He H0 H1 v. unfold still_entry in He. cbv zeta in He. subst v.
  destruct (be_id e); cbn [w_apply_boundary_conditions].
  - auto.
  - auto.
  - split; [exact H0|]. intros k Hk. unfold set_momentum. destruct (Nat.eqb_spec k 0); [lia|].
    destruct (Nat.leb_spec k dim); [|lia]. unfold RVec.vsub, RVec.vscal. rewrite (still_dot u _ H1). unfold w_momentum.
    replace (Datatypes.S (k - 1)) with k by lia. rewrite H1 by exact Hk. ring.
  - split; [exact H0|]. intros k Hk. unfold set_momentum. destruct (Nat.eqb_spec k 0); [lia|].
    destruct (Nat.leb_spec k dim); [|lia]. reflexivity.
  - apply He.
  - destruct He as [Hg He]. destruct (He t) as [D0 D1]. set (d := data (be_position e) t) in *.
    unfold w_prescribe_riemann_characteristic. cbn [Nat.eqb]. cbv zeta.
    rewrite !(still_dot u _ H1), !(still_dot d _ D1), !Rmult_0_l.
    assert (E : w_speed_of_sound s d = w_speed_of_sound s u) by (unfold w_speed_of_sound; rewrite H0, D0; reflexivity).
    rewrite E. set (a := w_speed_of_sound s u).
    assert (Pa : 0 <= a) by apply sqrt_pos.
    destruct (Rlt_dec 0 0) as [Q|_]; [lra|]. destruct (Rle_dec (- a) 0) as [_|Q]; [|lra]. destruct (Rle_dec 0 0) as [_|Q]; [|lra].
    assert (X : (0 + 2 * a - (0 - 2 * a)) / 4 = a) by field. rewrite X.
    assert (Ea : a * a = gravity s * u 0%nat).
    { unfold a, w_speed_of_sound. apply sqrt_sqrt. apply Rmult_le_pos; [lra|]. rewrite H0. apply Rmax_l. }
    unfold mkwater. split.
    + cbn [Nat.eqb]. rewrite Ea, <- H0. field. lra.
    + intros k Hk. destruct (Nat.eqb_spec k 0); [lia|]. destruct (Nat.leb_spec k dim); [|lia].
      unfold RVec.vadd, RVec.vscal, RVec.vsub, w_momentum. replace (Datatypes.S (k - 1)) with k by lia. rewrite D1 by exact Hk. field. lra.
  - split; [exact H0|]. intros k Hk. unfold set_momentum. destruct (Nat.eqb_spec k 0); [lia|].
    destruct (Nat.leb_spec k dim); [|lia]. unfold w_momentum. replace (Datatypes.S (k - 1)) with k by lia. apply He, Hk.
Qed.

Lemma lake_boundary t U : lake_at_rest s eps dim M Z level U -> lake_at_rest s eps dim M Z level (sw_apply_boundary p dim entries data t U).
Proof using HL.
  destruct HL as (_ & _ & _ & _ & _ & _ & _ & _ & _ & _ & _ & _ & _ & _ & _ & He).
  clear HL. unfold sw_apply_boundary. revert U. induction He as [|e l He1 Hl IH]; intros U HU; [exact HU|]. cbn [fold_left]. apply IH.
  assert (Q : lake_at_rest s eps dim M Z level (upd U (be_row e) (w_apply_boundary_conditions s eps dim (be_id e) (U (be_row e)) (be_normal e) (data (be_position e) t)))).
  { intros i Hi. unfold upd. destruct (Nat.eqb_spec i (be_row e)) as [E|E]; [|apply HU, Hi].
    destruct (HU i Hi) as (A & B & C). rewrite <- E. rewrite A in B. 
    pose proof (still_boundary e t (U i) He1) as SB. rewrite <- E in SB. specialize (SB A C). cbv zeta in SB. destruct SB as [S1 S2].
    split; [exact S1|]. split; [rewrite S1; exact B|exact S2]. }
  destruct (be_id e); try exact Q. exact HU.
Qed.

Lemma lake_prepare t v : lake v -> lake (prep t v).
Proof using HL. intros H. unfold sw_prepare. cbv zeta. cbn [fst]. apply lake_boundary, H. Qed.

Lemma lake_sadd a b v w : 0 <= a -> 0 <= b -> a + b = 1 -> lake v -> lake w -> lake (sw_sadd v a b w).
Proof using Type.
  intros _ _ E Hv Hw i Hi. destruct (Hv i Hi) as (A1 & B1 & C1). destruct (Hw i Hi) as (A2 & B2 & C2).
  unfold sw_sadd. cbn [fst]. unfold splus, smult.
  assert (Q : a * fst v i 0%nat + b * fst w i 0%nat = Rmax 0 (level - Z i)) by (rewrite A1, A2, <- Rmult_plus_distr_r, E; ring).
  split; [exact Q|]. split; [rewrite Q, <- A1; exact B1|]. intros k Hk. rewrite C1, C2 by exact Hk. ring.
Qed.

Lemma lake_update tau v st : lake v -> lake (fst (hyp v st tau)).
Proof using HL.
  destruct HL as ((Hpat & Hmass & Hnum & Hpairs & Hdim & Hrows & Hpos) & Hact & Hme & Ho & Hnm & He & Hb & Ht & Hr & Hd1 & Hd2 & Hcs & Hg & Hce & Hop & _).
  intros H i Hi. unfold sw_update. cbv zeta. cbn [fst].
  pose proof (rest_update p dim Z M nm level v st order n (tmp_a (tmp v)) (tmp_d (tmp v)) (tmp_l (tmp v)) (tmp_ln (tmp v)) (tmp_new (tmp v)) tau
    Hpat Hrows ltac:(lra) H Hop Ho i (Hact i Hi)) as Q.
  set (V := fst (hyperbolic_update _ _ _ _ _ _ _ _ _ _ _ _ _) i) in *. destruct (H i Hi) as (A & B & C).
  rewrite (Q 0%nat) by lia. split; [exact A|]. split; [exact B|]. intros k Hk. rewrite (Q k) by lia. apply C, Hk.
Qed.

Lemma lake_wavespeed (v w : sw_vector) i j x : lake v -> lake w -> (i < n_rows M)%nat -> (j < n_rows M)%nat ->
  sw_wavespeed s eps dim (fst v i) (fst v j) x = sw_wavespeed s eps dim (fst w i) (fst w j) x.
Proof using Type.
  intros Hv Hw Hi Hj.
  assert (G : forall k, (k < n_rows M)%nat -> wr_data s eps dim (fst v k) x = wr_data s eps dim (fst w k) x).
  { intros k Hk. destruct (Hv k Hk) as (A1 & _ & C1). destruct (Hw k Hk) as (A2 & _ & C2).
    assert (D : forall u : state nat, (forall k, (1 <= k <= dim)%nat -> u k = 0) -> forall h, RVec.dot dim x (fun k => w_momentum u k / h) = 0).
    { intros u Hu h. unfold RVec.dot. assert (G : forall m, (m <= dim)%nat -> rsum m (fun k => x k * (w_momentum u k / h)) = 0); [|apply G; lia].
      induction m as [|m IH]; intros Hm; cbn [rsum]; [reflexivity|]. rewrite IH by lia. unfold w_momentum, Rdiv. rewrite Hu by lia. ring. }
    unfold wr_data. cbv zeta. rewrite (D _ C1), (D _ C2). unfold water_depth_sharp, water_depth. rewrite A1, A2. reflexivity. }
  unfold sw_wavespeed. rewrite (G i Hi), (G j Hj). reflexivity.
Qed.

Lemma lake_rows cfl v w : lake v -> lake w -> rows cfl v = rows cfl w.
Proof using HL.
  destruct HL as ((Hpat & Hmass & Hnum & Hpairs & Hdim & Hrows & Hpos) & _).
  intros Hv Hw. unfold sw_rows, row_tau. apply map_ext_in. intros i Hi. apply active_spec in Hi. destruct Hi as [Hi _].
  assert (E : dij_matrix SY M nm v (tmp_d (tmp v)) i i = dij_matrix SY M nm w (tmp_d (tmp w)) i i); [|rewrite E; reflexivity].
  rewrite !(dij_diag SY M nm _ _ i Hpat Hi). f_equal. f_equal. apply lsum_ext. intros j Hj.
  destruct (neighbours_bound M i j Hpat Hi Hj) as [Hjb _].
  rewrite !(dij_value SY M nm _ _ i j Hpat Hnum Hpairs (sw_symmetric p dim Z M _) Hi Hj).
  unfold wave_viscosity. cbn [riemann_compute sw_scheme].
  rewrite (lake_wavespeed v w i j _ Hv Hw Hi Hjb), (lake_wavespeed v w j i _ Hv Hw Hjb Hi). reflexivity.
Qed.

Lemma lake_rows_ok cfl v : 0 < cfl -> rows cfl v <> [] /\ Forall (fun x => 0 < x) (rows cfl v).
Proof using HL.
  destruct HL as ((Hpat & Hmass & Hnum & Hpairs & Hdim & Hrows & Hpos) & _ & _ & _ & Hnm & _). intros Hc. split.
  - intros E. unfold sw_rows, row_tau in E. apply map_eq_nil in E.
    destruct Hpos as [r0 Hpos]. apply active_spec in Hpos. rewrite E in Hpos. destruct Hpos.
  - apply Forall_forall. intros x Hx. eapply (row_tau_positive SY M nm cfl v); eassumption.
Qed.

Lemma lake_unflagged cfl tau v st : 0 < cfl <= 1 -> 0 < tau -> lake v -> (forall r, In r (rows cfl v) -> tau <= r) -> snd (hyp v st tau) = false.
Proof using HL.
  destruct HL as ((Hpat & Hmass & Hnum & Hpairs & Hdim & Hrows & Hpos) & Hact & Hme & Ho & Hnm & He & Hb & Ht & Hr & Hd1 & Hd2 & Hcs & Hg & Hce & Hop & _).
  intros Hc Htau H Hf. unfold sw_rows in Hf.
  pose proof (C44_verdict_proof p dim Z M nm cfl level order n (tmp_a (tmp v)) (tmp_d (tmp v)) (tmp_new (tmp v)) v st tau Hpat Hmass Hnum Hpairs
    Hrows Hme Ho Hnm He Hb Ht Hr Hd1 Hd2 Hcs Hg Hce Hc ltac:(lra) Hf H) as Q.
  unfold sw_update. cbv zeta. cbn [snd].
  destruct (snd (hyperbolic_update _ _ _ _ _ _ _ _ _ _ _ _ _)) eqn:E; [|reflexivity]. exfalso. apply Q.
  unfold hyperbolic_update, update in E. cbn [snd] in E. apply restart_spec in E. destruct E as [E1 (i & j & Hi & Hj & E2)].
  split; [exact E1|]. exists i, j. split; [exact Hi|]. destruct (neighbours_columns M i j Hpat (proj1 Hi) Hj) as [Q1 Q2]. auto.
Qed.

Definition lake_AP := lake_prepare.
Lemma lake_AN cfl tau t v st : 0 < tau -> lake v -> (forall r, In r (rows cfl (prep t v)) -> tau <= r) ->
  Forall (fun x => lake (fst x)) st -> lake (fst (hyp (prep t v) st tau)).
Proof using HL. intros _ H _ _. apply lake_update, lake_prepare, H. Qed.
Lemma lake_AF cfl : 0 < cfl <= 1 -> forall tau t v st, 0 < tau -> lake v -> (forall r, In r (rows cfl (prep t v)) -> tau <= r) -> snd (hyp (prep t v) st tau) = false.
Proof using HL. intros Hc tau t v st Ht H Hr. eapply lake_unflagged; [exact Hc|exact Ht|apply lake_prepare, H|exact Hr]. Qed.
End Lake.

(** ** Volume *)
Section Volume.
Variables (p : wparameters) (dim : nat) (Z : nat -> R) (M : mesh) (nm : R)
  (entries : list bentry) (data : RVec.vec -> R -> state nat) (order : list nat) (n : nat) (tmp : sw_vector -> temporaries).
Local Notation s := (wp_system p).
Local Notation eps := (wp_eps p).
Local Notation bc e t u := (w_apply_boundary_conditions s eps dim (be_id e) u (be_normal e) (data (be_position e) t)).
Local Notation prep := (sw_prepare p dim M entries data).

Lemma bc_depth e t (u : state nat) : depth_kept e -> bc e t u 0%nat = u 0%nat.
Proof using Type. unfold depth_kept. destruct (be_id e); intros []; reflexivity. Qed.

Lemma fold_bc (l : list bentry) t U : sw_apply_boundary p dim l data t U = fold_left (fun U e => upd U (be_row e) (bc e t (U (be_row e)))) l U.
Proof using Type.
  unfold sw_apply_boundary. revert U. induction l as [|e l IH]; intros U; [reflexivity|]. cbn [fold_left]. rewrite IH. f_equal.
  destruct (be_id e) eqn:E; try reflexivity. apply functional_extensionality. intros i. unfold upd. destruct (Nat.eqb_spec i (be_row e)) as [->|]; reflexivity.
Qed.

Lemma boundary_depth l t U i : Forall depth_kept l -> sw_apply_boundary p dim l data t U i 0%nat = U i 0%nat.
Proof using Type.
  intros H. rewrite fold_bc. revert U. induction H as [|e l He Hl IH]; intros U; [reflexivity|]. cbn [fold_left]. rewrite IH.
  unfold upd. destruct (Nat.eqb_spec i (be_row e)) as [->|]; [apply bc_depth, He|reflexivity].
Qed.

Lemma boundary_other l t U i : Forall (fun e => be_row e <> i) l -> sw_apply_boundary p dim l data t U i = U i.
Proof using Type.
  intros H. rewrite fold_bc. revert U. induction H as [|e l He Hl IH]; intros U; [reflexivity|]. cbn [fold_left]. rewrite IH.
  unfold upd. destruct (Nat.eqb_spec i (be_row e)) as [->|]; [congruence|reflexivity].
Qed.

Lemma boundary_app l1 l2 t U : sw_apply_boundary p dim (l1 ++ l2) data t U = sw_apply_boundary p dim l2 data t (sw_apply_boundary p dim l1 data t U).
Proof using Type. unfold sw_apply_boundary. apply fold_left_app. Qed.

Lemma dot_zero_r a (b : RVec.vec) : (forall k, (k < dim)%nat -> b k = 0) -> RVec.dot dim a b = 0.
Proof using Type.
  intros H. unfold RVec.dot. assert (G : forall m, (m <= dim)%nat -> rsum m (fun k => a k * b k) = 0); [|apply G; lia].
  induction m as [|m IH]; intros Hm; cbn [rsum]; [reflexivity|]. rewrite IH, H by lia. ring.
Qed.
Lemma dot_scaled a b (c : RVec.vec) x : (forall k, (k < dim)%nat -> c k = x * b k) -> RVec.dot dim a c = x * RVec.dot dim a b.
Proof using Type.
  intros H. unfold RVec.dot. assert (G : forall m, (m <= dim)%nat -> rsum m (fun k => a k * c k) = x * rsum m (fun k => a k * b k)); [|apply G; lia].
  induction m as [|m IH]; intros Hm; cbn [rsum]; [ring|]. rewrite IH, H by lia. ring.
Qed.
Lemma dot_ext_l a b c : (forall k, (k < dim)%nat -> a k = b k) -> RVec.dot dim a c = RVec.dot dim b c.
Proof using Type.
  intros H. unfold RVec.dot. assert (G : forall m, (m <= dim)%nat -> rsum m (fun k => a k * c k) = rsum m (fun k => b k * c k)); [|apply G; lia].
  induction m as [|m IH]; intros Hm; cbn [rsum]; [ring|]. rewrite IH, H by lia. ring.
Qed.

Lemma closed_prepared t v i : closed_row dim M entries i -> RVec.dot dim (w_momentum (fst (prep t v) i)) (vec_of (c_ij M i i)) = 0.
Proof using Type.
  intros [H|(l1 & e & l2 & E & Er & Hl2 & Hk)]; [apply dot_zero_r, H|].
  unfold sw_prepare. cbv zeta. cbn [fst]. rewrite E, boundary_app. change (e :: l2) with ([e] ++ l2). rewrite boundary_app, (boundary_other l2 t _ i Hl2).
  set (W := sw_apply_boundary p dim l1 data t (fst v)). rewrite fold_bc. cbn [fold_left]. unfold upd. rewrite Er, Nat.eqb_refl.
  destruct Hk as [Hk|(Hk & Hn & a & Ha)]; rewrite Hk; cbn [w_apply_boundary_conditions].
  - rewrite (dot_ext_l _ (fun _ => 0)).
    + unfold RVec.dot. clear. induction dim as [|m IH]; cbn [rsum]; [reflexivity|]. rewrite IH. ring.
    + intros k Hkk. unfold w_momentum, set_momentum. cbn [Nat.eqb]. destruct (Nat.leb_spec (Datatypes.S k) dim); [reflexivity|lia].
  - rewrite (dot_scaled _ (be_normal e) (vec_of (c_ij M i i)) a Ha). cbv zeta.
    rewrite (dot_ext_l _ (RVec.vsub (w_momentum (W i)) (RVec.vscal (1 * RVec.dot dim (w_momentum (W i)) (be_normal e)) (be_normal e)))).
    + assert (Q : forall x y z : RVec.vec, forall r, RVec.dot dim (RVec.vsub x (RVec.vscal r y)) z = RVec.dot dim x z - r * RVec.dot dim y z).
      { clear. intros x y z r. unfold RVec.dot, RVec.vsub, RVec.vscal. induction dim as [|m IH]; cbn [rsum]; [ring|]. rewrite IH. ring. }
      rewrite Q. unfold norm2 in Hn. rewrite Hn. ring.
    + intros k Hkk. unfold w_momentum at 1, set_momentum. cbn [Nat.eqb]. destruct (Nat.leb_spec (Datatypes.S k) dim); [|lia].
      replace (Datatypes.S k - 1)%nat with k by lia. reflexivity.
Qed.

Hypothesis Hpat : symmetric_pattern M.
Hypothesis Hmass : positive_masses M.
Hypothesis Hnum : valid_numbering M.
Hypothesis Hsym : symmetric_matrices M.
Hypothesis Hskew : forall i j, active M i -> In j (columns M i) -> i <> j -> skew_at M i j.
Hypothesis Hkept : Forall depth_kept entries.
Hypothesis Hclosed : forall i, active M i -> closed_row dim M entries i.
Variable V : R.
Local Notation holds v := (total M (active_rows M) (fst v) 0%nat = V).

Lemma volume_prepare t v : holds v -> holds (prep t v).
Proof using Hkept.
  intros <-. unfold total, sw_prepare. cbv zeta. cbn [fst]. apply lsum_ext. intros i _. rewrite boundary_depth by exact Hkept. reflexivity.
Qed.
Lemma volume_sadd a b v w : 0 <= a -> 0 <= b -> a + b = 1 -> holds v -> holds w -> holds (sw_sadd v a b w).
Proof using Type. intros _ _ E Hv Hw. unfold sw_sadd. cbn [fst]. rewrite total_linear, Hv, Hw, <- Rmult_plus_distr_r, E. ring. Qed.
Lemma volume_update tau t v st : holds v -> holds (fst (sw_update p dim Z M nm order n tmp (prep t v) st tau)).
Proof using Hpat Hmass Hnum Hsym Hskew Hkept Hclosed.
  intros H. unfold sw_update. cbv zeta. cbn [fst].
  rewrite (sw_volume p dim Z M nm order n _ _ _ _ _ (prep t v) st tau Hpat Hmass Hnum Hsym Hskew).
  - apply volume_prepare, H.
  - intros i Hi. apply closed_prepared, Hclosed, Hi.
Qed.
End Volume.

(** ** The theorems *)
Lemma C132_step_proof : forall p dim Z M num_min level entries data order n tmp sch rec cfl_min cfl_max t t_final s,
  lake_setting p dim Z M num_min level entries data order ->
  explicit_scheme sch = true -> 0 < cfl_max <= 1 ->
  (rec = bang_bang_control \/ st_cfl _ s = cfl_max) -> t < t_final ->
  lake_at_rest (wp_system p) (wp_eps p) dim M Z level (fst (st_vector _ s)) ->
  exists h s', sw_step p dim Z M num_min entries data order n tmp sch rec cfl_min cfl_max t t_final s = (Ok h, s') /\
    0 < h /\ counters_eq s s' /\ lake_at_rest (wp_system p) (wp_eps p) dim M Z level (fst (st_vector _ s')).
Proof.
  intros p dim Z M nm level entries data order n tmp sch rec c0 c1 t tf s HL Hs Hc Hx Ht Hv.
  destruct (steady_step sw_vector (sw_prepare p dim M entries data) (sw_rows p dim Z M nm tmp) (sw_update p dim Z M nm order n tmp) sw_no_parabolic sw_sadd
    (fun v => lake_at_rest (wp_system p) (wp_eps p) dim M Z level (fst v))
    (lake_prepare p dim Z M nm level entries data order HL) (lake_sadd p dim Z M level) c1
    (lake_AN p dim Z M nm level entries data order HL n tmp c1)
    (fun v => lake_rows_ok p dim Z M nm level entries data order HL tmp c1 v (proj1 Hc))
    (fun t t' v w Hv Hw => lake_rows p dim Z M nm level entries data order HL tmp c1 _ _ (lake_prepare p dim Z M nm level entries data order HL t v Hv) (lake_prepare p dim Z M nm level entries data order HL t' w Hw))
    (lake_AF p dim Z M nm level entries data order HL n tmp c1 Hc) sch rec c0 t tf s Hs Hx Ht Hv) as (s' & Q & A & B & _ & C).
  eexists _, s'. split; [exact Q|]. auto.
Qed.

Lemma C132_run_proof : forall p dim Z M num_min level entries data order n tmp sch rec cfl_min cfl_max t_final t s,
  lake_setting p dim Z M num_min level entries data order ->
  explicit_scheme sch = true -> 0 < cfl_max <= 1 ->
  (rec = bang_bang_control \/ st_cfl _ s = cfl_max) ->
  lake_at_rest (wp_system p) (wp_eps p) dim M Z level (fst (st_vector _ s)) ->
  (t <= t_final -> exists s',
     steps (fun t => sw_step p dim Z M num_min entries data order n tmp sch rec cfl_min cfl_max t t_final) (fun _ _ => True) t s t_final s') /\
  forall t' s',
    steps (fun t => sw_step p dim Z M num_min entries data order n tmp sch rec cfl_min cfl_max t t_final) (fun _ _ => True) t s t' s' ->
    counters_eq s s' /\ lake_at_rest (wp_system p) (wp_eps p) dim M Z level (fst (st_vector _ s')).
Proof.
  intros p dim Z M nm level entries data order n tmp sch rec c0 c1 tf t s HL Hs Hc Hx Hv. split.
  - intros Ht.
    destruct (steady_run sw_vector (sw_prepare p dim M entries data) (sw_rows p dim Z M nm tmp) (sw_update p dim Z M nm order n tmp) sw_no_parabolic sw_sadd
      (fun v => lake_at_rest (wp_system p) (wp_eps p) dim M Z level (fst v))
      (lake_prepare p dim Z M nm level entries data order HL) (lake_sadd p dim Z M level) c1
      (lake_AN p dim Z M nm level entries data order HL n tmp c1)
      (fun v => lake_rows_ok p dim Z M nm level entries data order HL tmp c1 v (proj1 Hc))
      (fun t t' v w Hv Hw => lake_rows p dim Z M nm level entries data order HL tmp c1 _ _ (lake_prepare p dim Z M nm level entries data order HL t v Hv) (lake_prepare p dim Z M nm level entries data order HL t' w Hw))
      (lake_AF p dim Z M nm level entries data order HL n tmp c1 Hc) sch rec c0 tf t s Hs Hx Hv Ht) as (s' & Q & _).
    exists s'. exact Q.
  - intros t' s' H.
    destruct (steady_steps sw_vector (sw_prepare p dim M entries data) (sw_rows p dim Z M nm tmp) (sw_update p dim Z M nm order n tmp) sw_no_parabolic sw_sadd
      (fun v => lake_at_rest (wp_system p) (wp_eps p) dim M Z level (fst v))
      (lake_prepare p dim Z M nm level entries data order HL) (lake_sadd p dim Z M level) c1
      (lake_AN p dim Z M nm level entries data order HL n tmp c1)
      (fun v => lake_rows_ok p dim Z M nm level entries data order HL tmp c1 v (proj1 Hc))
      (fun t t' v w Hv Hw => lake_rows p dim Z M nm level entries data order HL tmp c1 _ _ (lake_prepare p dim Z M nm level entries data order HL t v Hv) (lake_prepare p dim Z M nm level entries data order HL t' w Hw))
      (lake_AF p dim Z M nm level entries data order HL n tmp c1 Hc) (fun _ _ => True) sch rec c0 tf t s t' s' Hs Hx H Hv) as [Q1 Q2].
    split; [exact Q2|exact Q1].
Qed.

Lemma C132_volume_proof : forall p dim Z M num_min entries data order n tmp sch rec cfl_min cfl_max t_final t s t' s',
  symmetric_pattern M -> positive_masses M -> valid_numbering M -> symmetric_matrices M ->
  (forall i j, active M i -> In j (columns M i) -> i <> j -> skew_at M i j) ->
  Forall depth_kept entries -> (forall i, active M i -> closed_row dim M entries i) ->
  explicit_scheme sch = true ->
  steps (fun t => sw_step p dim Z M num_min entries data order n tmp sch rec cfl_min cfl_max t t_final) (fun _ _ => True) t s t' s' ->
  total M (active_rows M) (fst (st_vector _ s')) 0%nat = total M (active_rows M) (fst (st_vector _ s)) 0%nat.
Proof.
  intros p dim Z M nm entries data order n tmp sch rec c0 c1 tf t s t' s' Hpat Hmass Hnum Hsym Hskew Hkept Hclosed Hs H.
  set (V := total M (active_rows M) (fst (st_vector _ s)) 0%nat).
  apply (steps_kept sw_vector (sw_prepare p dim M entries data) (sw_rows p dim Z M nm tmp) (sw_update p dim Z M nm order n tmp) sw_no_parabolic sw_sadd
    (fun v => total M (active_rows M) (fst v) 0%nat = V)
    (fun t v => volume_prepare p dim M entries data Hkept V t v) (volume_sadd M V)
    (volume_update p dim Z M nm entries data order n tmp Hpat Hmass Hnum Hsym Hskew Hkept Hclosed V) (fun _ _ => True) sch rec c0 c1 tf t s t' s' Hs H).
  reflexivity.
Qed.

Lemma C132_completes_proof : forall p dim Z M num_min entries data order n tmp sch cfl_min cfl_max t t_final s,
  proper_mesh M dim -> 0 < num_min -> explicit_scheme sch = true -> 0 < cfl_min -> 0 < cfl_max -> t < t_final ->
  exists h s', sw_step p dim Z M num_min entries data order n tmp sch bang_bang_control cfl_min cfl_max t t_final s = (Ok h, s') /\
    0 < h <= t_final - t.
Proof.
  intros p dim Z M nm entries data order n tmp sch c0 c1 t tf s (Hpat & Hmass & Hnum & Hpairs & Hdim & Hrows & Hpos) Hnm Hs H0 H1 Ht.
  destruct (progress_pos sw_vector (sw_prepare p dim M entries data) (sw_rows p dim Z M nm tmp) (sw_update p dim Z M nm order n tmp) sw_no_parabolic sw_sadd
    sch c0 c1 t tf s) as (h & s' & Q); try assumption.
  - intros cfl v Hc. split.
    + intros E. unfold sw_rows, row_tau in E. apply map_eq_nil in E.
      destruct Hpos as [r0 Hpos]. apply active_spec in Hpos. rewrite E in Hpos. destruct Hpos.
    + apply Forall_forall. intros x Hx. eapply (row_tau_positive (sw_scheme p dim Z) M nm cfl v); eassumption.
  - exists h, s'. split; [exact Q|]. apply step_tau in Q. lra.
Qed.
