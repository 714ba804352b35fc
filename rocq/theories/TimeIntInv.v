From Coq Require Import Reals List Lra Lia FunctionalExtensionality.
From Verif Require Import TimeInt TimeIntSpec TimeIntProofs TimeIntRK.
Import ListNotations.
Local Open Scope R_scope.

Lemma midpoint_of_backward_euler : forall I (L : vec I -> vec I) (B : R -> R -> vec I -> vec I) h t u,
  is_backward_euler_step L (h / 2) u (B (h / 2) t u) ->
  is_midpoint_step L h u (crank_nicolson B (h / 2) t u).
Proof.
  unfold is_backward_euler_step, is_midpoint_step, crank_nicolson. intros I L B h t u E.
  set (y := B (h / 2) t u) in *. clearbody y.
  replace (vscal (1 / 2) (vadd u (vadd (vscal 2 y) (vscal (-1) u)))) with y.
  2:{ extensionality i. unfold vadd, vscal. field. }
  extensionality i. unfold vadd, vscal in *.
  assert (Y : y i = u i + h / 2 * L y i) by exact (equal_f E i).
  rewrite Y. field.
Qed.

(* ---------- Invariant sets ---------- *)
Section Inv.
Context {I : Type}.
Variable P : R -> vec I -> vec I.
Variable K : vec I -> Prop.
Hypothesis KP : forall t u, K u -> K (P t u).
Variable rows : R -> tvec I -> list R.
Lemma convex_half : convex K -> forall u v, K u -> K v ->
  K (vadd (vscal (1/2) u) (vscal (1/2) v)).
Proof.
  intros C u v Ku Kv. specialize (C u v (1/2) Ku Kv ltac:(lra)).
  replace (1 - 1/2) with (1/2) in C by field. exact C.
Qed.

Lemma convex_pair : convex K -> forall u v a b, K u -> K v -> 0 <= a -> 0 <= b -> a + b = 1 ->
  K (vadd (vscal a u) (vscal b v)).
Proof.
  intros C u v a b Ku Kv A B E. replace b with (1 - a) by lra. apply C; auto. lra.
Qed.

Lemma ssp_inv : forall hyp para sch t tm s h s',
  In sch [ssprk_22; ssprk_33; erk_11] ->
  convex K ->
  (forall o, K (fst o) -> K (fst (fst (hyp o [] h)))) ->
  single_step (tvec I) (pprep P) rows hyp para tsadd sch t tm s = (Ok h, s') ->
  K (fst (st_vector _ s)) -> K (fst (st_vector _ s')).
Proof.
  intros hyp para sch t tm s h s' Hs C KH H Ku.
  assert (Kp : K (fst ((pprep P) t (st_vector (tvec I) s)))) by (apply KP; assumption).
  simpl in Hs. destruct Hs as [<- | [<- | [<- | []]]]; start H; run_ok.
  - rewrite H5, H1. apply convex_pair; auto; try lra. apply KH. apply KP. apply KH. exact Kp.
  - rewrite H7, H5, H1. apply convex_pair; auto; try lra.
    apply KH. simpl. apply KP. apply convex_pair; auto; try lra.
    apply KH. apply KP. apply KH. exact Kp.
  - rewrite H1. apply KH. exact Kp.
Qed.

Lemma erk_inv : forall hyp para sch t tm s h s',
  In sch [erk_11; erk_22; erk_33; erk_43; erk_54] ->
  (forall o st tau, K (fst o) -> Forall (fun x => K (fst (fst x))) st ->
     K (fst (fst (hyp o st tau)))) ->
  single_step (tvec I) (pprep P) rows hyp para tsadd sch t tm s = (Ok h, s') ->
  K (fst (st_vector _ s)) -> K (fst (st_vector _ s')).
Proof.
  intros hyp para sch t tm s h s' Hs KH H Ku.
  assert (Kp : K (fst ((pprep P) t (st_vector (tvec I) s)))) by (apply KP; assumption).
  assert (KP' : forall t v, K (fst v) -> K (fst ((pprep P) t v))) by (intros; apply KP; assumption).
  simpl in Hs. destruct Hs as [<- | [<- | [<- | [<- | [<- | []]]]]]; start H; run_ok;
  repeat match goal with
  | Q : fst ?r = fst (hyp ?o ?st ?tau) |- _ =>
      assert (K (fst (fst r))) by
        (rewrite Q; apply KH; [auto|repeat (constructor; [simpl; auto|]); constructor]);
      clear Q
  end; assumption.
Qed.

(** The same for updates that are only known to be good when not flagged:
    replace flagged results by the old vector. *)
Definition unflagged (hyp : tvec I -> list (tvec I * R) -> R -> tvec I * bool)
  (o : tvec I) (st : list (tvec I * R)) (tau : R) : tvec I * bool :=
  let '(n, b) := hyp o st tau in if b then (o, b) else (n, b).

Lemma ssp_inv_unflagged : forall hyp para sch t tm s h s',
  In sch [ssprk_22; ssprk_33; erk_11] -> convex K ->
  (forall o tau n, K (fst o) -> hyp o [] tau = (n, false) -> K (fst n)) ->
  single_step (tvec I) (pprep P) rows hyp para tsadd sch t tm s = (Ok h, s') ->
  counters_eq s s' ->
  K (fst (st_vector _ s)) -> K (fst (st_vector _ s')).
Proof.
  intros hyp para sch t tm s h s' Hs C KH H Q Ku.
  apply (ssp_inv (unflagged hyp) para sch t tm s h s'); auto.
  - intros o Ko. unfold unflagged. destruct (hyp o [] h) as [n []] eqn:E; simpl; auto. exact (KH _ _ _ Ko E).
  - refine (proj2 (agree_single _ (pprep P) rows hyp (unflagged hyp) para para tsadd _ _ sch t tm s h s' H) Q).
    + intros o st tau n E. unfold unflagged. rewrite E. reflexivity.
    + auto.
Qed.

Lemma erk_inv_unflagged : forall hyp para sch t tm s h s',
  In sch [erk_11; erk_22; erk_33; erk_43; erk_54] ->
  (forall o st tau n, K (fst o) -> Forall (fun x => K (fst (fst x))) st ->
     hyp o st tau = (n, false) -> K (fst n)) ->
  single_step (tvec I) (pprep P) rows hyp para tsadd sch t tm s = (Ok h, s') ->
  counters_eq s s' ->
  K (fst (st_vector _ s)) -> K (fst (st_vector _ s')).
Proof.
  intros hyp para sch t tm s h s' Hs KH H Q Ku.
  apply (erk_inv (unflagged hyp) para sch t tm s h s'); auto.
  - intros o st tau Ko Ks. unfold unflagged. destruct (hyp o st tau) as [n []] eqn:E; simpl; auto.
    exact (KH _ _ _ _ Ko Ks E).
  - refine (proj2 (agree_single _ (pprep P) rows hyp (unflagged hyp) para para tsadd _ _ sch t tm s h s' H) Q).
    + intros o st tau n E. unfold unflagged. rewrite E. reflexivity.
    + auto.
Qed.
End Inv.

(* ---------- A concrete instance: u' = u (one unknown) ---------- *)
Definition ex_F (tau t : R) (u : vec unit) : vec unit := u.
Definition ex_D (tau t : R) (u : vec unit) : vec unit := vzero.
Definition ex_B (tau t : R) (u : vec unit) : vec unit := vscal (/ (1 + tau)) u.
Definition ex_rows (cfl : R) (u : tvec unit) : list R := [cfl; 2 * cfl].
Definition ex_flag (o : tvec unit) (st : list (tvec unit * R)) (tau : R) : bool := false.
Definition ex_pflag (o : tvec unit) (t tau : R) : bool := false.
Definition ex_state : mstate (tvec unit) :=
  {| st_vector := (fun _ => 1, 0); st_cfl := 1; st_hyp := warn; st_para := warn;
     st_restarts := 0; st_warnings := 0; st_para_restarts := 0; st_para_warnings := 0 |}.

Lemma ex_runs : forall sch flag pflag, sch <> imex_22 -> sch <> imex_33 ->
  exists h s', single_step (tvec unit) tprep ex_rows (rk_hyp ex_F ex_D flag)
    (be_para ex_B pflag) tsadd sch 0 6 ex_state = (Ok h, s').
Proof.
  intros sch flag pflag N1 N2.
  pose proof (runs_single (tvec unit) tprep ex_rows (rk_hyp ex_F ex_D flag) (be_para ex_B pflag) tsadd 1) as X.
  specialize (X ltac:(intros; repeat constructor; lra) ltac:(intros; discriminate) sch 0 6 ltac:(lra) N1 N2 ltac:(right; intros; discriminate) ex_state eq_refl).
  destruct (single_step _ _ _ _ _ _ _ _ _ _) as [[h| |] s'].
  - eauto.
  - destruct X as [[X | X] _]; discriminate.
  - destruct X as [[] _].
Qed.

Lemma ex_size : forall sch flag pflag h s',
  single_step (tvec unit) tprep ex_rows (rk_hyp ex_F ex_D flag)
    (be_para ex_B pflag) tsadd sch 0 6 ex_state = (Ok h, s') -> h = efficiency sch * Rmin 1 (Rmin 2 (6 / efficiency sch)).
Proof.
  intros sch flag pflag h s' E. apply single_step_tau in E. destruct E as [E _]. rewrite E.
  simpl. rewrite Rmult_1_r. reflexivity.
Qed.

Lemma ssprk_22_doc_refuted :
  exists s h s',
    single_step (tvec unit) tprep ex_rows (rk_hyp ex_F ex_D ex_flag)
      (be_para ex_B ex_pflag) tsadd ssprk_22 0 6 s = (Ok h, s') /\
    fst (st_vector _ s') <>
    rk_step (fun t u => vadd (ex_F h t u) (ex_D h t u)) doc_ssprk_22 0 h (fst (st_vector _ s)).
Proof.
  destruct (ex_runs ssprk_22 ex_flag ex_pflag ltac:(discriminate) ltac:(discriminate)) as (h & s' & E).
  exists ex_state, h, s'. split; [exact E|].
  pose proof (ex_size _ _ _ _ _ E) as Hh.
  rewrite (ssprk_22_rk _ _ _ _ _ _ _ _ _ _ E).
  assert (H1 : h = 1).
  { rewrite Hh. unfold efficiency. rewrite Rmin_left; [lra|]. apply Rmin_glb; lra. }
  intros Q. apply (f_equal (fun f => f tt)) in Q. revert Q. rewrite H1.
  unfold rk_step, doc_ssprk_22, heun, ex_F, ex_D, vadd, vscal, vzero; simpl.
  unfold vadd, vscal, vzero. lra.
Qed.

(* ---------- Statements of the property theorems ---------- *)
Lemma single_step_size : forall SV prep rows hyp para sadd sch t tau_max (s : mstate SV) h s',
  single_step SV prep rows hyp para sadd sch t tau_max s = (Ok h, s') ->
  h = efficiency sch *
      fold_right Rmin (tau_max / efficiency sch) (rows (st_cfl _ s) (prep t (st_vector _ s))).
Proof. intros. eapply single_step_tau; eauto. Qed.

Lemma erk_54_statement : exists tab,
  close_tableau (1 / 1000000000000000) tab doc_erk_54 /\
  order_up_to tab 4 (1 / 1000000000000000) /\
  forall I (F D : R -> R -> vec I -> vec I) rows flag para t tau_max s h s',
    single_step (tvec I) tprep rows (rk_hyp F D flag) para tsadd erk_54 t tau_max s = (Ok h, s') ->
    fst (st_vector _ s') = rk_substep (F (h / 5)) (D (h / 5)) tab t h (fst (st_vector _ s)).
Proof.
  exists real_54. split; [apply real_54_close|]. split; [apply real_54_order|].
  intros. eapply erk_54_rk; eauto.
Qed.

Lemma step_no_silent : forall SV prep rows hyp hyp2 para para2 sadd sch rc c0 c1 t tf (s : mstate SV) h s',
  (forall o st tau n, hyp o st tau = (n, false) -> hyp2 o st tau = (n, false)) ->
  (forall o t tau n, para o t tau = Some (n, false) -> para2 o t tau = Some (n, false)) ->
  step SV prep rows hyp para sadd sch rc c0 c1 t tf s = (Ok h, s') ->
  counters_eq s s' ->
  step SV prep rows hyp2 para2 sadd sch rc c0 c1 t tf s = (Ok h, s').
Proof.
  intros SV prep rows hyp hyp2 para para2 sadd sch rc c0 c1 t tf s h s' HA PA H C.
  destruct rc.
  - rewrite step_none in *.
    destruct (single_step SV prep rows hyp para sadd sch t (tf - t) s) as [[x| |] s1] eqn:E;
      try discriminate. inversion H; subst.
    destruct (agree_single _ prep rows hyp hyp2 para para2 sadd HA PA _ _ _ _ _ _ E) as [_ A].
    rewrite (A C). reflexivity.
  - destruct (step_bang_cases _ _ _ _ _ _ _ _ _ _ _ _ _ _ H) as [_ [(E & C1 & _) | X]].
    + rewrite step_bang.
      destruct (agree_single _ prep rows hyp hyp2 para para2 sadd HA PA _ _ _ _ _ _ E) as [_ A].
      rewrite (A C). reflexivity.
    + destruct X as (s1 & _ & _ & R1 & _ & _ & _ & R2). exfalso.
      unfold counters_eq, total_restarts in *. lia.
Qed.

Lemma linear_stability_33 : forall z u,
  rk_step (fun _ (v : vec unit) => vscal z v) doc_erk_33 0 1 u tt =
  (1 + z + z ^ 2 / 2 + z ^ 3 / 6) * u tt.
Proof. intros z u. unfold rk_step, doc_erk_33, vadd, vscal, vzero; simpl. unfold vadd, vscal, vzero. field. Qed.

Lemma retry_idempotent : forall SV prep rows hyp para sadd sch c0 c1 t tf (s s1 : mstate SV) o s',
  (forall t u, prep t (prep t u) = prep t u) ->
  single_step SV prep rows hyp para sadd sch t (tf - t)
    (configured raise_exception raise_exception c1 s) = (Restart, s1) ->
  step SV prep rows hyp para sadd sch bang_bang_control c0 c1 t tf s = (o, s') ->
  single_step SV prep rows hyp para sadd sch t (tf - t)
    {| st_vector := st_vector _ s; st_cfl := c0; st_hyp := warn; st_para := warn;
       st_restarts := st_restarts _ s1; st_warnings := st_warnings _ s1;
       st_para_restarts := st_para_restarts _ s1; st_para_warnings := st_para_warnings _ s1 |} = (o, s').
Proof.
  intros SV prep rows hyp para sadd sch c0 c1 t tf s s1 o s' Id E H.
  rewrite step_bang, E in H. rewrite <- H.
  destruct (single_step_frame SV prep rows hyp para sadd sch t (tf - t)
    (configured raise_exception raise_exception c1 s)) as [_ V]. rewrite E in V. simpl in V.
  destruct (scheme_shape SV prep rows hyp para sadd sch t (tf - t)) as (f & -> & _).
  unfold bind. rewrite !prepare_argument_eq. unfold prepared, configured. simpl.
  rewrite V, Id. reflexivity.
Qed.

(** Instance for C15: the interval [0, 1] and a halving map. *)
Definition ex_halve (o : tvec unit) (st : list (tvec unit * R)) (tau : R) : tvec unit * bool :=
  ((fun i => fst o i / 2, 0), false).
Definition ex_K (u : vec unit) : Prop := 0 <= u tt <= 1.
Definition ex_clip (t : R) (u : vec unit) : vec unit := fun i => Rmin 1 (u i).

Lemma ex_K_ok : convex ex_K /\ (forall t u, ex_K u -> ex_K (ex_clip t u)) /\
  (forall o st tau, ex_K (fst o) -> ex_K (fst (fst (ex_halve o st tau)))) /\
  ex_K (fst (st_vector _ ex_state)) /\
  forall sch, sch <> imex_22 -> sch <> imex_33 -> exists h s',
    single_step (tvec unit) (pprep ex_clip) ex_rows ex_halve (be_para ex_B ex_pflag) tsadd sch 0 6 ex_state
    = (Ok h, s').
Proof.
  unfold ex_K. split; [|split; [|split; [|split]]].
  - intros u v a Hu Hv Ha. unfold vadd, vscal. split; nra.
  - intros t u H. unfold ex_clip. rewrite Rmin_right; lra.
  - intros o st tau H. simpl. lra.
  - simpl. lra.
  - intros sch N1 N2.
    pose proof (runs_single (tvec unit) (pprep ex_clip) ex_rows ex_halve (be_para ex_B ex_pflag) tsadd 1) as X.
    specialize (X ltac:(intros; repeat constructor; lra) ltac:(intros; discriminate) sch 0 6 ltac:(lra) N1 N2 ltac:(right; intros; discriminate) ex_state eq_refl).
    destruct (single_step _ _ _ _ _ _ _ _ _ _) as [[h| |] s'].
    + eauto.
    + destruct X as [[X | X] _]; discriminate.
    + destruct X as [[] _].
Qed.

(** Instance for C16: every update is flagged. *)
Definition ex_bad (x : R) (o : tvec unit) (st : list (tvec unit * R)) (tau : R) : tvec unit * bool :=
  ((fun _ => x, 0), true).

Lemma ex_bad_unsilent : forall t tm s h s',
  single_step (tvec unit) tprep ex_rows (ex_bad 5) (be_para ex_B ex_pflag) tsadd erk_11 t tm s = (Ok h, s') ->
  ~ counters_eq s s'.
Proof.
  intros t tm s h s' E C.
  destruct (agree_single _ tprep ex_rows (ex_bad 5) (ex_bad 7) (be_para ex_B ex_pflag) (be_para ex_B ex_pflag)
     tsadd ltac:(discriminate) ltac:(auto) _ _ _ _ _ _ E) as [_ A].
  specialize (A C). clear C.
  assert (V5 : fst (st_vector _ s') tt = 5) by (start E; run_ok;
    match goal with Q : fst _ = fst (ex_bad _ _ _ _) |- _ => rewrite Q; reflexivity end).
  assert (V7 : fst (st_vector _ s') tt = 7) by (start A; run_ok;
    match goal with Q : fst _ = fst (ex_bad _ _ _ _) |- _ => rewrite Q; reflexivity end).
  lra.
Qed.

Lemma ex_restart : exists h s',
  step (tvec unit) tprep ex_rows (ex_bad 5) (be_para ex_B ex_pflag) tsadd
    erk_11 bang_bang_control 1 2 0 6 ex_state = (Ok h, s') /\
  total_restarts s' = 1%nat /\ (0 < total_warnings s')%nat.
Proof.
  assert (P : forall c u, 0 < c -> Forall (fun r => 0 < r) (ex_rows c u)) by
    (intros; repeat constructor; lra).
  rewrite step_bang.
  pose proof (runs_single (tvec unit) tprep ex_rows (ex_bad 5) (be_para ex_B ex_pflag) tsadd 2
     ltac:(intros; repeat constructor; lra) ltac:(intros; discriminate) erk_11 0 (6 - 0) ltac:(lra)
     ltac:(discriminate) ltac:(discriminate) (or_introl eq_refl) (configured raise_exception raise_exception 2 ex_state) eq_refl)
     as (X & _).
  destruct (single_step_frame (tvec unit) tprep ex_rows (ex_bad 5) (be_para ex_B ex_pflag) tsadd erk_11 0 (6 - 0)
     (configured raise_exception raise_exception 2 ex_state)) as [F1 _].
  destruct (single_step _ _ _ _ _ _ erk_11 _ _ (configured raise_exception raise_exception 2 ex_state))
    as [[h| |] s1] eqn:E; [| |contradiction].
  { exfalso. apply ex_bad_unsilent in E. apply E. destruct F1 as (_ & L & R1 & _ & W & _).
    specialize (W eq_refl eq_refl). destruct (R1 ltac:(discriminate)) as [e1 e2].
    unfold counters_eq, counters_le, total_warnings in *. simpl in *. lia. }
  destruct F1 as (_ & L & _ & R2 & W & _). specialize (R2 eq_refl). specialize (W eq_refl eq_refl).
  pose proof (runs_single (tvec unit) tprep ex_rows (ex_bad 5) (be_para ex_B ex_pflag) tsadd 1
     ltac:(intros; repeat constructor; lra) ltac:(intros; discriminate) erk_11 0 (6 - 0) ltac:(lra)
     ltac:(discriminate) ltac:(discriminate) (or_introl eq_refl) (configured warn warn 1 s1) eq_refl)
     as (Y & _).
  destruct (single_step_frame (tvec unit) tprep ex_rows (ex_bad 5) (be_para ex_B ex_pflag) tsadd erk_11 0 (6 - 0)
     (configured warn warn 1 s1)) as [F2 _].
  destruct (single_step _ _ _ _ _ _ erk_11 _ _ (configured warn warn 1 s1))
    as [[h| |] s2] eqn:E2; [|destruct Y; discriminate|contradiction].
  exists h, s2. split; [reflexivity|].
  apply ex_bad_unsilent in E2. destruct F2 as (_ & L2 & R3 & _ & _ & _).
  destruct (R3 ltac:(discriminate)) as [e1 e2].
  unfold counters_eq, counters_le, total_warnings, total_restarts in *. simpl in *. lia.
Qed.
