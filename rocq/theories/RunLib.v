(** Lemmas about complete steps of the integrator for arbitrary modules. *)
From Coq Require Import Reals List Arith ZArith Lia Lra.
From Verif Require Import TimeInt TimeIntSpec TimeIntProofs EulerRunSpec EulerRunProofs EulerRunFinal.
Import ListNotations.
Local Open Scope R_scope.

Lemma progress_pos SV prep rows hyp para sadd sch c0 c1 t tf s :
  (forall c u, 0 < c -> rows c u <> [] /\ Forall (fun r => 0 < r) (rows c u)) ->
  0 < c0 -> 0 < c1 -> t < tf -> explicit_scheme sch = true ->
  exists h s', TimeInt.step SV prep rows hyp para sadd sch bang_bang_control c0 c1 t tf s = (Ok h, s').
Proof.
  intros H P0 P1 T E. assert (N1 : sch <> imex_22) by (intros ->; discriminate E). assert (N2 : sch <> imex_33) by (intros ->; discriminate E).
  rewrite step_bang.
  pose proof (runs_single SV prep rows hyp para sadd c1 (fun u => proj2 (H c1 u P1)) (fun u => proj1 (H c1 u P1)) sch t (tf - t) ltac:(lra) N1 N2 (or_introl E)
    (configured raise_exception raise_exception c1 s) eq_refl) as (X & _).
  destruct (single_step SV prep rows hyp para sadd sch t (tf - t) (configured raise_exception raise_exception c1 s))
      as [[x| |] s1] eqn:E1; [eauto| |contradiction].
  pose proof (runs_single SV prep rows hyp para sadd c0 (fun u => proj2 (H c0 u P0)) (fun u => proj1 (H c0 u P0)) sch t (tf - t) ltac:(lra) N1 N2 (or_introl E)
    (configured warn warn c0 s1) eq_refl) as (Y & _).
  destruct (single_step SV prep rows hyp para sadd sch t (tf - t) (configured warn warn c0 s1)) as [[x| |] s2] eqn:E2; [eauto| |contradiction].
  destruct Y; discriminate.
Qed.

Section Lib.
Variable SV : Type.
Variable prep : R -> SV -> SV.
Variable rows : R -> SV -> list R.
Variable hyp : SV -> list (SV * R) -> R -> SV * bool.
Variable para : SV -> R -> R -> option (SV * bool).
Variable sadd : SV -> R -> R -> SV -> SV.
Variable A : SV -> Prop.
Hypothesis AP : forall t v, A v -> A (prep t v).
Hypothesis AC : forall a b v w, 0 <= a -> 0 <= b -> a + b = 1 -> A v -> A w -> A (sadd v a b w).
Local Notation istep := (TimeInt.step SV prep rows hyp para sadd).
Local Notation sstep := (single_step SV prep rows hyp para sadd).

(** *** A property kept whatever the verdicts *)
Section Kept.
Hypothesis AN : forall tau t v st, A v -> A (fst (hyp (prep t v) st tau)).

Ltac kept_tac := first
  [ match goal with X : A ?v |- A ?v => exact X end
  | match goal with X : _ = fst (hyp (prep _ _) _ _) |- A _ => rewrite X; clear X; kept_tac end
  | match goal with |- A (sadd _ _ _ _) => apply AC; [lra|lra|lra|kept_tac|kept_tac] end
  | match goal with |- A (prep _ _) => apply AP; kept_tac end
  | match goal with |- A (fst (hyp (prep _ _) _ _)) => apply AN; kept_tac end ].

Lemma single_kept sch t tm s h s' : explicit_scheme sch = true ->
  sstep sch t tm s = (Ok h, s') -> A (st_vector _ s) -> A (st_vector _ s').
Proof using AP AC AN.
  intros Hs H Av. destruct sch; try discriminate Hs; start H; run_ok;
  cbn [st_vector fst snd] in *;
  repeat match goal with X : fst ?r = fst (hyp _ _ _) |- _ => rewrite X in *; clear X end;
  try kept_tac.
Qed.

Lemma step_kept sch rec c0 c1 t tf s h s' : explicit_scheme sch = true ->
  istep sch rec c0 c1 t tf s = (Ok h, s') -> A (st_vector _ s) -> A (st_vector _ s').
Proof using AP AC AN.
  intros Hs H Av. destruct rec.
  - rewrite step_none in H. destruct (sstep sch t (tf - t) s) as [[x| |] s1] eqn:E; try discriminate.
    injection H as <- <-. eapply single_kept; eassumption.
  - apply step_bang_cases in H. destruct H as [_ [[H _]|(s1 & H1 & E1 & _ & _ & H & _)]].
    + eapply single_kept in H; [exact H|exact Hs|exact Av].
    + eapply single_kept in H; [exact H|exact Hs|]. cbn [configured st_vector]. 
      change (A (st_vector _ s1)). rewrite E1. apply AP, Av.
Qed.

Lemma steps_kept P sch rec c0 c1 tf t s t' s' : explicit_scheme sch = true ->
  steps (fun t => istep sch rec c0 c1 t tf) P t s t' s' -> A (st_vector _ s) -> A (st_vector _ s').
Proof using AP AC AN.
  intros Hs H. induction H as [t s|t s h s1 t' s' _ Hstep _ IH]; intros Av; [exact Av|].
  apply IH. eapply step_kept; eassumption.
Qed.
End Kept.

(** *** A family of vectors with the same proposals, on which steps of admissible size are accepted *)
Section Steady.
Variable cfl : R.
Hypothesis AN : forall tau t v st, 0 < tau -> A v -> (forall r, In r (rows cfl (prep t v)) -> tau <= r) ->
  Forall (fun x => A (fst x)) st -> A (fst (hyp (prep t v) st tau)).
Hypothesis RN : forall v, rows cfl v <> [] /\ Forall (fun x => 0 < x) (rows cfl v).
Hypothesis RE : forall t t' v w, A v -> A w -> rows cfl (prep t v) = rows cfl (prep t' w).
Hypothesis AF : forall tau t v st, 0 < tau -> A v -> (forall r, In r (rows cfl (prep t v)) -> tau <= r) ->
  snd (hyp (prep t v) st tau) = false.

Lemma steady_single sch t tf s : explicit_scheme sch = true -> st_cfl _ s = cfl -> t < tf -> A (st_vector _ s) ->
  let h := efficiency sch * fold_right Rmin ((tf - t) / efficiency sch) (rows cfl (prep t (st_vector _ s))) in
  exists s', sstep sch t (tf - t) s = (Ok h, s') /\ 0 < h /\ counters_eq s s' /\ st_cfl _ s' = cfl /\ A (st_vector _ s').
Proof using AP AC AN RN RE AF.
  intros Hs E Ht Av h. pose proof (efficiency_pos sch) as He.
  set (tau := fold_right Rmin ((tf - t) / efficiency sch) (rows cfl (prep t (st_vector _ s)))) in *.
  assert (Et : tau = fold_right Rmin ((tf - t) / efficiency sch) (rows (st_cfl _ s) (prep t (st_vector _ s)))) by (rewrite E; reflexivity).
  assert (Hp : 0 < tau) by (apply fold_Rmin_pos; [apply Rdiv_lt_0_compat; lra|apply RN]).
  assert (Hle : forall t1 v1, A v1 -> forall r, In r (rows cfl (prep t1 v1)) -> tau <= r).
  { intros t1 v1 Hv1 r Hr. rewrite (RE t1 t v1 (st_vector _ s) Hv1 Av) in Hr. apply fold_Rmin_in, Hr. }
  destruct (trace_keep prep (fun o st => fst (hyp o st tau)) sadd A (fun _ => True) AP (fun t v st a _ F => AN tau t v st Hp a (Hle t v a) F) AC sch t tau (st_vector _ s) Av) as [K1 K2].
  { apply Forall_forall. intros; exact Logic.I. }
  rewrite Forall_forall in K1. eexists. split.
  - unfold h. rewrite Et. apply (trace_step SV prep rows hyp para sadd sch t (tf - t) s Hs).
    + rewrite <- Et. exact Hp.
    + rewrite <- Et. intros o st Hi. rewrite E. destruct (RN o) as [R1 R2]. split; [exact R1|]. split; [exact R2|].
      destruct (K1 (o, st) Hi) as (t1 & v1 & E1 & Hv1). cbn [fst] in E1. rewrite E1. apply AF; [exact Hp|exact Hv1|]. apply Hle, Hv1.
  - rewrite <- Et. split; [unfold h; apply Rmult_lt_0_compat; assumption|]. split; [repeat split; reflexivity|]. split; [exact E|exact K2].
Qed.

Lemma steady_step sch rec c0 t tf s : explicit_scheme sch = true -> (rec = bang_bang_control \/ st_cfl _ s = cfl) -> t < tf -> A (st_vector _ s) ->
  let h := efficiency sch * fold_right Rmin ((tf - t) / efficiency sch) (rows cfl (prep t (st_vector _ s))) in
  exists s', istep sch rec c0 cfl t tf s = (Ok h, s') /\ 0 < h /\ counters_eq s s' /\ st_cfl _ s' = cfl /\ A (st_vector _ s').
Proof using AP AC AN RN RE AF.
  intros Hs E Ht Av h. destruct rec.
  - destruct E as [E|E]; [discriminate|]. rewrite step_none.
    destruct (steady_single sch t tf s Hs E Ht Av) as (x' & Q & Z). exists x'. rewrite Q. split; [reflexivity|exact Z].
  - rewrite step_bang. set (y := configured raise_exception raise_exception cfl s).
    destruct (steady_single sch t tf y Hs eq_refl Ht Av) as (x' & Q & Z). exists x'. rewrite Q. split; [reflexivity|exact Z].
Qed.

Lemma fold_Rmin_alt c : forall l m, (forall r, In r l -> c <= r) -> fold_right Rmin m l = m \/ c <= fold_right Rmin m l.
Proof using Type.
  induction l as [|y l IHl]; intros m Hl; [left; reflexivity|]. cbn [fold_right].
  assert (c <= y) by (apply Hl; left; reflexivity). assert (Hl' : forall r, In r l -> c <= r) by (intros; apply Hl; right; assumption).
  destruct (Rle_dec y (fold_right Rmin m l)) as [L1|L1]; [right; rewrite Rmin_left; lra|rewrite Rmin_right by lra; apply IHl, Hl'].
Qed.

Lemma positive_below : forall l : list R, Forall (fun x => 0 < x) l -> exists c, 0 < c /\ forall r, In r l -> c <= r.
Proof using Type.
  induction 1 as [|x l Hx _ (c & Pc & Hc)]; [exists 1; split; [lra|intros r []]|].
  exists (Rmin x c). split; [apply Rmin_glb_lt; assumption|]. intros r [<-|Hr]; [apply Rmin_l|].
  eapply Rle_trans; [apply Rmin_r|apply Hc, Hr].
Qed.

Lemma steady_reaches sch rec c0 tf c t0 v0 : explicit_scheme sch = true -> 0 < c -> A v0 -> (forall r, In r (rows cfl (prep t0 v0)) -> c <= r) ->
  forall k t s, (rec = bang_bang_control \/ st_cfl _ s = cfl) -> A (st_vector _ s) -> t <= tf <= t + INR k * c ->
  exists s', steps (fun t => istep sch rec c0 cfl t tf) (fun _ _ => True) t s tf s' /\ counters_eq s s' /\ A (st_vector _ s').
Proof using AP AC AN RN RE AF.
  intros Hs Pc A0 Hr. induction k as [|k IH]; intros t s Hx Av Ht.
  - cbn in Ht. assert (E : t = tf) by lra. rewrite E. exists s. split; [apply steps_none|]. split; [repeat split; reflexivity|exact Av].
  - destruct (Rlt_dec t tf) as [L|L].
    2:{ assert (E : t = tf) by lra. rewrite E. exists s. split; [apply steps_none|]. split; [repeat split; reflexivity|exact Av]. }
    destruct (steady_step sch rec c0 t tf s Hs Hx L Av) as (s1 & Q & Hh & Hq & Hcf & Hv1).
    set (h := efficiency sch * _) in *. pose proof (step_tau _ _ _ _ _ _ _ _ _ _ _ _ _ _ _ Q) as [_ Hmax].
    pose proof (efficiency_pos sch) as He.
    assert (He1 : 1 <= efficiency sch) by (destruct sch; cbn; lra).
    assert (Hmin : h = tf - t \/ c <= h).
    { unfold h. rewrite (RE t t0 (st_vector _ s) v0 Av A0).
      destruct (fold_Rmin_alt c (rows cfl (prep t0 v0)) ((tf - t) / efficiency sch) Hr) as [E|E].
      - left. rewrite E. field. lra.
      - right. nra. }
    destruct (IH (t + h) s1 (or_intror Hcf) Hv1) as (s' & R1 & R2 & R3).
    { split; [lra|]. rewrite S_INR in Ht. pose proof (pos_INR k). destruct Hmin; nra. }
    exists s'. split; [eapply steps_more; [exact Logic.I|exact Q|exact R1]|]. split; [|exact R3].
    unfold counters_eq in *. intuition congruence.
Qed.

Lemma steady_run sch rec c0 tf t s : explicit_scheme sch = true -> (rec = bang_bang_control \/ st_cfl _ s = cfl) -> A (st_vector _ s) -> t <= tf ->
  exists s', steps (fun t => istep sch rec c0 cfl t tf) (fun _ _ => True) t s tf s' /\ counters_eq s s' /\ A (st_vector _ s').
Proof using AP AC AN RN RE AF.
  intros Hs Hx Av Ht. destruct (positive_below (rows cfl (prep t (st_vector _ s))) (proj2 (RN _))) as (c & Pc & Hc).
  assert (Hk0 : exists k, (tf - t) / c < INR k).
  { exists (Z.to_nat (up ((tf - t) / c))). destruct (archimed ((tf - t) / c)) as [U1 _].
    assert (U2 : 0 <= (tf - t) / c) by (apply Rmult_le_pos; [lra|apply Rlt_le, Rinv_0_lt_compat, Pc]).
    rewrite INR_IZR_INZ, Z2Nat.id; [exact U1|]. apply le_IZR. lra. }
  destruct Hk0 as (k & Hk).
  apply (steady_reaches sch rec c0 tf c t (st_vector _ s) Hs Pc Av Hc k t s Hx Av). split; [exact Ht|].
  apply (Rmult_lt_compat_r c) in Hk; [|exact Pc]. replace ((tf - t) / c * c) with (tf - t) in Hk by (field; lra). lra.
Qed.

(** Every run, not only some. *)
Lemma steady_steps P sch rec c0 tf t s t' s' : explicit_scheme sch = true -> (rec = bang_bang_control \/ st_cfl _ s = cfl) ->
  steps (fun t => istep sch rec c0 cfl t tf) P t s t' s' -> A (st_vector _ s) -> A (st_vector _ s') /\ counters_eq s s'.
Proof using AP AC AN RN RE AF.
  intros Hs Hx H. induction H as [t s|t s h s1 t' s' _ Hstep _ IH]; intros Av.
  - split; [exact Av|repeat split; reflexivity].
  - pose proof (step_tau _ _ _ _ _ _ _ _ _ _ _ _ _ _ _ Hstep) as Ht.
    destruct (steady_step sch rec c0 t tf s Hs Hx ltac:(lra) Av) as (s2 & Q & Hh & Hq & Hcf & Hv1).
    rewrite Hstep in Q. injection Q as _ Q2. subst s2. destruct (IH (or_intror Hcf) Hv1) as [B1 B2]. split; [exact B1|].
    unfold counters_eq in *. intuition congruence.
Qed.
End Steady.

(** *** Steps all of whose substeps are suitable *)
Section Careful.
Variable cfl : R.
Variable S : R -> SV -> Prop.
Hypothesis AN : forall tau t v st, 0 < tau -> A v -> S tau (prep t v) -> A (fst (hyp (prep t v) st tau)).
Hypothesis AF : forall tau t v st, 0 < tau -> A v -> S tau (prep t v) -> snd (hyp (prep t v) st tau) = false.
Hypothesis RN : forall v, rows cfl v <> [] /\ Forall (fun x => 0 < x) (rows cfl v).

Definition proposed (sch : scheme) (t tf : R) (v : SV) : R :=
  efficiency sch * fold_right Rmin ((tf - t) / efficiency sch) (rows cfl (prep t v)).
Definition careful (sch : scheme) (t : R) (v : SV) (h : R) : Prop :=
  let tau := h / efficiency sch in
  forall o st, In (o, st) (fst (trace prep (fun o st => fst (hyp o st tau)) sadd sch t tau v)) -> S tau o.

Lemma careful_single sch t tf s : explicit_scheme sch = true -> st_cfl _ s = cfl -> t < tf -> A (st_vector _ s) ->
  let h := proposed sch t tf (st_vector _ s) in careful sch t (st_vector _ s) h ->
  exists s', sstep sch t (tf - t) s = (Ok h, s') /\ 0 < h /\ counters_eq s s' /\ st_cfl _ s' = cfl /\ A (st_vector _ s').
Proof using AP AC AN RN AF.
  intros Hs E Ht Av h Hcau. pose proof (efficiency_pos sch) as He.
  set (tau := fold_right Rmin ((tf - t) / efficiency sch) (rows cfl (prep t (st_vector _ s)))) in *.
  assert (Et : tau = fold_right Rmin ((tf - t) / efficiency sch) (rows (st_cfl _ s) (prep t (st_vector _ s)))) by (rewrite E; reflexivity).
  assert (Eh : h = efficiency sch * tau) by reflexivity.
  assert (Hp : 0 < tau) by (apply fold_Rmin_pos; [apply Rdiv_lt_0_compat; lra|apply RN]).
  unfold careful in Hcau. replace (h / efficiency sch) with tau in Hcau by (rewrite Eh; field; lra). cbv zeta in Hcau.
  destruct (trace_keep prep (fun o st => fst (hyp o st tau)) sadd A (S tau) AP (fun t v st a b _ => AN tau t v st Hp a b) AC sch t tau (st_vector _ s) Av) as [K1 K2].
  { apply Forall_forall. intros [o st] Hi. exact (Hcau o st Hi). }
  rewrite Forall_forall in K1. eexists. split.
  - rewrite Eh, Et. apply (trace_step SV prep rows hyp para sadd sch t (tf - t) s Hs).
    + rewrite <- Et. exact Hp.
    + rewrite <- Et. intros o st Hi. rewrite E. destruct (RN o) as [R1 R2]. split; [exact R1|]. split; [exact R2|].
      destruct (K1 (o, st) Hi) as (t1 & v1 & E1 & Hv1). cbn [fst] in E1. pose proof (Hcau o st Hi) as Q. rewrite E1 in *. apply AF; assumption.
  - rewrite <- Et. split; [rewrite Eh; apply Rmult_lt_0_compat; assumption|]. split; [repeat split; reflexivity|]. split; [exact E|exact K2].
Qed.

Lemma careful_step sch rec c0 t tf s : explicit_scheme sch = true -> (rec = bang_bang_control \/ st_cfl _ s = cfl) -> t < tf -> A (st_vector _ s) ->
  let h := proposed sch t tf (st_vector _ s) in careful sch t (st_vector _ s) h ->
  exists s', istep sch rec c0 cfl t tf s = (Ok h, s') /\ 0 < h /\ counters_eq s s' /\ st_cfl _ s' = cfl /\ A (st_vector _ s').
Proof using AP AC AN RN AF.
  intros Hs E Ht Av h Hcau. destruct rec.
  - destruct E as [E|E]; [discriminate|]. rewrite step_none.
    destruct (careful_single sch t tf s Hs E Ht Av Hcau) as (x' & Q & Z). exists x'. rewrite Q. split; [reflexivity|exact Z].
  - rewrite step_bang. set (y := configured raise_exception raise_exception cfl s).
    destruct (careful_single sch t tf y Hs eq_refl Ht Av Hcau) as (x' & Q & Z). exists x'. rewrite Q. split; [reflexivity|exact Z].
Qed.

Lemma careful_steps sch rec c0 tf t s t' s' : explicit_scheme sch = true -> (rec = bang_bang_control \/ st_cfl _ s = cfl) ->
  steps (fun t => istep sch rec c0 cfl t tf) (fun t s => careful sch t (st_vector _ s) (proposed sch t tf (st_vector _ s))) t s t' s' ->
  A (st_vector _ s) -> A (st_vector _ s') /\ counters_eq s s' /\ t <= t'.
Proof using AP AC AN RN AF.
  intros Hs Hx H. induction H as [t s|t s h s1 t' s' HP Hstep _ IH]; intros Av.
  - split; [exact Av|]. split; [repeat split; reflexivity|lra].
  - pose proof (step_tau _ _ _ _ _ _ _ _ _ _ _ _ _ _ _ Hstep) as Ht.
    destruct (careful_step sch rec c0 t tf s Hs Hx ltac:(lra) Av HP) as (s2 & Q & Hh & Hq & Hcf & Hv1).
    rewrite Hstep in Q. injection Q as _ Q2. subst s2. destruct (IH (or_intror Hcf) Hv1) as (B1 & B2 & B3). split; [exact B1|]. split; [|lra].
    unfold counters_eq in *. intuition congruence.
Qed.
End Careful.
End Lib.
