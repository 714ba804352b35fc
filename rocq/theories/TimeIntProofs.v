From Coq Require Import Reals List Lra Lia FunctionalExtensionality.
From Verif Require Import TimeInt TimeIntSpec.
Import ListNotations.
Local Open Scope R_scope.

Section Proofs.
Variable SV : Type.
Variable prep : R -> SV -> SV.
Variable rows : R -> SV -> list R.
Variable hyp : SV -> list (SV * R) -> R -> SV * bool.
Variable para : SV -> R -> R -> option (SV * bool).
Variable sadd : SV -> R -> R -> SV -> SV.

Notation mst := (mstate SV).
Notation hstep := (hyperbolic_step SV rows hyp).
Notation pstep := (parabolic_step SV para).
Notation sstep := (single_step SV prep rows hyp para sadd).
Notation istep := (step SV prep rows hyp para sadd).

(* ---------- select_tau ---------- *)
Lemma fold_Rmin_le : forall l m, fold_right Rmin m l <= m.
Proof using Type.
  induction l; intros m; simpl; [lra|].
  apply Rle_trans with (fold_right Rmin m l); [apply Rmin_r | apply IHl].
Qed.

Lemma select_zero : forall m l r, select_tau 0 (Some m) l = Ok r ->
  r = fold_right Rmin m l /\ 0 < r /\ r <= m.
Proof using Type.
  intros m l r. unfold select_tau.
  destruct (Rlt_dec 0 (fold_right Rmin m l)); [|discriminate].
  destruct (Req_EM_T 0 0); [|lra]. intros E. injection E as <-.
  split; [reflexivity|split;[assumption|apply fold_Rmin_le]].
Qed.

Lemma select_nonzero : forall tau tm l r, tau <> 0 -> select_tau tau tm l = Ok r -> r = tau.
Proof using Type.
  intros tau tm l r N. unfold select_tau.
  destruct tm as [m|]; [|destruct l as [|x l]; [discriminate|]].
  - destruct (Rlt_dec _ _); [|discriminate]. destruct (Req_EM_T tau 0); [easy|congruence].
  - destruct (Rlt_dec _ _); [|discriminate]. destruct (Req_EM_T tau 0); [easy|congruence].
Qed.

Lemma select_not_restart : forall tau tm l, select_tau tau tm l <> Restart.
Proof using Type.
  intros tau tm l. unfold select_tau.
  destruct tm as [m|]; [|destruct l as [|x l]; [discriminate|]];
  destruct (Rlt_dec _ _); discriminate.
Qed.

(* ---------- frame ---------- *)
Definition counters_le (s s' : mst) : Prop :=
  (st_restarts _ s <= st_restarts _ s' /\ st_warnings _ s <= st_warnings _ s' /\
   st_para_restarts _ s <= st_para_restarts _ s' /\
   st_para_warnings _ s <= st_para_warnings _ s')%nat.
(** The effect of a computation on everything but the state vector. *)
Definition frame {A} (s : mst) (r : outcome A * mst) : Prop :=
  let '(o, s') := r in
  same_config s s' /\ counters_le s s' /\
  (o <> Restart -> st_restarts _ s' = st_restarts _ s /\ st_para_restarts _ s' = st_para_restarts _ s) /\
  (o = Restart -> total_restarts s' = Datatypes.S (total_restarts s)) /\
  (st_hyp _ s = raise_exception -> st_para _ s = raise_exception ->
     total_warnings s' = total_warnings s) /\
  (st_hyp _ s = warn -> st_para _ s = warn -> o <> Restart).

Definition inert {A} (m : M SV A) : Prop :=
  forall s, frame s (m s) /\ st_vector _ (snd (m s)) = st_vector _ s.
Definition final {A} (m : M SV A) : Prop :=
  forall s, frame s (m s) /\
    (match fst (m s) with Ok _ => True | _ => st_vector _ (snd (m s)) = st_vector _ s end).

Ltac frame_tac :=
  unfold frame, same_config, counters_le, total_restarts, total_warnings; simpl;
  repeat match goal with |- _ /\ _ => split | |- _ -> _ => intro end;
  try congruence; try lia; try discriminate.

Lemma inert_hstep : forall old st tau tm, inert (hstep old st tau tm).
Proof using Type.
  intros old st tau tm s. unfold hyperbolic_step.
  destruct (select_tau tau tm (rows (st_cfl SV s) old)) eqn:E.
  - destruct (hyp old st a) as [n []]; [destruct (st_hyp SV s) eqn:H|]; split; frame_tac.
  - exfalso; eapply select_not_restart; eauto.
  - split; frame_tac.
Qed.

Lemma inert_pstep : forall old t st tau, inert (pstep old t st tau).
Proof using Type.
  intros old t st tau s. unfold parabolic_step. destruct st; [|split; frame_tac].
  destruct (para old t tau) as [[n []]|]; [destruct (st_para SV s) eqn:H| |]; split; frame_tac.
Qed.

Lemma final_set : forall v (A : Type) (h : A), final (bind SV (set_vector SV v) (fun _ => ret SV h)).
Proof using Type. intros v A h s. split; [frame_tac|exact I]. Qed.

Lemma frame_trans : forall A B s (a : A) s1 (r : outcome B * mst),
  frame s (Ok a, s1) -> frame s1 r -> frame s r.
Proof using Type.
  intros A B s a s1 [o s2] (C1 & L1 & R1 & _ & W1 & _) (C2 & L2 & R2 & R2' & W2 & N2).
  destruct C1 as (c1 & h1 & p1), C2 as (c2 & h2 & p2).
  destruct L1 as (l1 & l2 & l3 & l4), L2 as (k1 & k2 & k3 & k4).
  destruct (R1 ltac:(discriminate)) as [e1 e2].
  unfold frame, same_config, counters_le.
  split; [repeat split; congruence|]. split; [repeat split; lia|].
  split; [intro Q; destruct (R2 Q); split; congruence|].
  split; [intro Q; rewrite (R2' Q); unfold total_restarts; congruence|].
  split.
  - intros Q1 Q2. rewrite <- (W1 Q1 Q2). apply W2; congruence.
  - intros Q1 Q2. apply N2; congruence.
Qed.

Lemma frame_restart : forall A B s s1,
  frame s (@Restart A, s1) -> frame s (@Restart B, s1).
Proof using Type.
  intros A B s s1 (X1 & X2 & X3 & X4 & X5 & X6). unfold frame.
  split; [assumption|]. split; [assumption|]. split; [congruence|].
  split; [intros _; apply X4; reflexivity|]. split; [assumption|].
  intros Q1 Q2. exfalso. apply (X6 Q1 Q2). reflexivity.
Qed.

Lemma frame_fail : forall A B s s1,
  frame s (@Fail A, s1) -> frame s (@Fail B, s1).
Proof using Type.
  intros A B s s1 (X1 & X2 & X3 & X4 & X5 & X6). unfold frame.
  split; [assumption|]. split; [assumption|]. split; [intros _; apply X3; discriminate|].
  split; [discriminate|]. split; [assumption|]. discriminate.
Qed.

Lemma final_bind : forall A B (m : M SV A) (f : A -> M SV B),
  inert m -> (forall a, final (f a)) -> final (bind SV m f).
Proof using Type.
  intros A B m f Im Ff s. unfold bind. destruct (Im s) as [F V].
  destruct (m s) as [o s1]. simpl in V. destruct o as [a| |].
  - destruct (Ff a s1) as [F2 V2]. split; [eapply frame_trans; eauto|].
    destruct (fst (f a s1)); auto; congruence.
  - simpl. split; [|assumption]. eapply frame_restart; eauto.
  - simpl. split; [|assumption]. eapply frame_fail; eauto.
Qed.

(** Every scheme prepares the argument and then leaves it alone until the end. *)
Lemma scheme_shape : forall sch t tm, exists f,
  sstep sch t tm = bind SV (prepare_argument SV prep t) f /\ forall U, final (f U).
Proof using Type.
  intros sch t tm.
  destruct sch; eexists; (split; [simpl; unfold step_ssprk_22, step_ssprk_33, step_erk_11, step_erk_22,
    step_erk_33, step_erk_43, step_erk_54, step_strang_ssprk_33_cn, step_strang_erk_33_cn,
    step_strang_erk_43_cn, step_imex_11, step_imex_22, step_imex_33; reflexivity |]);
  intro U; cbv zeta;
  repeat (apply final_bind; [first [apply inert_hstep | apply inert_pstep]|intro]);
  apply final_set.
Qed.

(** The machine state with its vector prepared for time t. *)
Definition prepared (t : R) (s : mst) : mst :=
  {| st_vector := prep t (st_vector _ s); st_cfl := st_cfl _ s; st_hyp := st_hyp _ s;
     st_para := st_para _ s; st_restarts := st_restarts _ s; st_warnings := st_warnings _ s;
     st_para_restarts := st_para_restarts _ s; st_para_warnings := st_para_warnings _ s |}.

Lemma prepare_argument_eq : forall t s,
  prepare_argument SV prep t s = (Ok (prep t (st_vector _ s)), prepared t s).
Proof using Type. reflexivity. Qed.

Lemma single_step_frame : forall sch t tm s,
  frame s (sstep sch t tm s) /\
  (match fst (sstep sch t tm s) with
   | Ok _ => True
   | _ => st_vector _ (snd (sstep sch t tm s)) = prep t (st_vector _ s)
   end).
Proof using Type.
  intros sch t tm s. destruct (scheme_shape sch t tm) as (f & E & F). rewrite E.
  unfold bind. rewrite prepare_argument_eq.
  destruct (F (prep t (st_vector SV s)) (prepared t s)) as [F1 F2].
  split; [|exact F2].
  destruct (f (prep t (st_vector SV s)) (prepared t s)) as [o s']. exact F1.
Qed.

(* ---------- inversion of successful runs ---------- *)
Lemma bind_ok : forall A B (m : M SV A) (f : A -> M SV B) s b s2,
  bind SV m f s = (Ok b, s2) -> exists a s1, m s = (Ok a, s1) /\ f a s1 = (Ok b, s2).
Proof using Type.
  intros A B m f s b s2. unfold bind. destruct (m s) as [o s1].
  destruct o; try discriminate. eauto.
Qed.

Lemma hstep_ok : forall old st tau tm s r s1,
  hstep old st tau tm s = (Ok r, s1) ->
  select_tau tau tm (rows (st_cfl _ s) old) = Ok (snd r) /\
  fst r = fst (hyp old st (snd r)).
Proof using Type.
  intros old st tau tm s r s1. unfold hyperbolic_step.
  destruct (select_tau tau tm (rows (st_cfl SV s) old)) eqn:E; try discriminate.
  destruct (hyp old st a) as [n []] eqn:H; [destruct (st_hyp SV s)|]; intros Q; inversion Q; subst;
  simpl; rewrite H; split; reflexivity.
Qed.

Lemma hstep_ok_zero : forall old st m s r s1,
  hstep old st 0 (Some m) s = (Ok r, s1) ->
  snd r = fold_right Rmin m (rows (st_cfl _ s) old) /\ 0 < snd r <= m /\
  fst r = fst (hyp old st (snd r)).
Proof using Type.
  intros old st m s r s1 H. destruct (hstep_ok _ _ _ _ _ _ _ H) as [S1 H1].
  apply select_zero in S1. destruct S1 as (A & B & C). split; [exact A|]. split; [split; assumption|exact H1].
Qed.

Lemma hstep_ok_tau : forall old st tau s r s1, 0 < tau ->
  hstep old st tau None s = (Ok r, s1) -> snd r = tau /\ fst r = fst (hyp old st tau).
Proof using Type.
  intros old st tau s r s1 P H. destruct (hstep_ok _ _ _ _ _ _ _ H) as [S1 H1].
  apply select_nonzero in S1; [|apply Rgt_not_eq; exact P]. split; [exact S1|]. rewrite S1 in H1. exact H1.
Qed.

Lemma pstep_ok : forall old t st tau s r s1,
  pstep old t st tau s = (Ok r, s1) -> st = [] /\ exists b, para old t tau = Some (r, b).
Proof using Type.
  intros old t st tau s r s1. unfold parabolic_step. destruct st; [|discriminate].
  destruct (para old t tau) as [[n b]|] eqn:H; [|discriminate]. destruct b; [destruct (st_para SV s)|]; intros Q; inversion Q; subst; split; eauto.
Qed.

End Proofs.

(** Runs the successful steps one by one. *)
Ltac run_ok :=
  repeat match goal with
  | H : bind _ (hyperbolic_step _ _ _ _ _ 0 (Some _)) _ _ = (Ok _, _) |- _ =>
      let r := fresh "r" in let s := fresh "s" in let H1 := fresh "H" in let H2 := fresh "H" in
      apply bind_ok in H; destruct H as (r & s & H1 & H);
      apply hstep_ok_zero in H1; destruct H1 as (H1 & [? ?] & H2)
  | H : bind _ (hyperbolic_step _ _ _ _ _ (snd _) None) _ _ = (Ok _, _) |- _ =>
      let r := fresh "r" in let s := fresh "s" in let H1 := fresh "H" in let H2 := fresh "H" in
      apply bind_ok in H; destruct H as (r & s & H1 & H);
      apply hstep_ok_tau in H1; [destruct H1 as [H1 H2]|assumption]
  | H : bind _ (parabolic_step _ _ _ _ _ _) _ _ = (Ok _, _) |- _ =>
      let r := fresh "p" in let s := fresh "s" in let H1 := fresh "H" in let H2 := fresh "H" in
      apply bind_ok in H; destruct H as (r & s & H1 & H);
      let b := fresh "b" in apply pstep_ok in H1; destruct H1 as (H1 & b & H2); try discriminate H1
  | H : bind _ (set_vector _ _) _ _ = (Ok _, _) |- _ =>
      unfold bind, set_vector, ret in H; inversion H; clear H; subst; simpl
  end.

Ltac start H :=
  simpl in H; unfold step_ssprk_22, step_ssprk_33, step_erk_11, step_erk_22,
    step_erk_33, step_erk_43, step_erk_54, step_strang_ssprk_33_cn, step_strang_erk_33_cn,
    step_strang_erk_43_cn, step_imex_11, step_imex_22, step_imex_33 in H;
  cbv zeta in H;
  let X := fresh in
  apply bind_ok in H; destruct H as (? & ? & X & H); rewrite prepare_argument_eq in X;
  injection X as <- <-.

Section Proofs2.
Variable SV : Type.
Variable prep : R -> SV -> SV.
Variable rows : R -> SV -> list R.
Variable hyp : SV -> list (SV * R) -> R -> SV * bool.
Variable para : SV -> R -> R -> option (SV * bool).
Variable sadd : SV -> R -> R -> SV -> SV.
Notation sstep := (single_step SV prep rows hyp para sadd).

Lemma single_step_tau : forall sch t tm s h s',
  sstep sch t tm s = (Ok h, s') ->
  h = efficiency sch *
      fold_right Rmin (tm / efficiency sch) (rows (st_cfl _ s) (prep t (st_vector _ s))) /\
  0 < h <= tm.
Proof.
  intros sch t tm s h s' H.
  destruct sch; start H; run_ok;
  match goal with
  | A : snd ?r = fold_right Rmin _ _, B : 0 < snd ?r |- _ => simpl in A; rewrite A in *
  end; unfold efficiency;
  try (match goal with |- context [tm / 1] => replace (tm / 1) with tm by field end);
  (split; [ring|]); split; lra.
Qed.

Lemma imex_never : forall sch t tm s h s', sch = imex_22 \/ sch = imex_33 ->
  sstep sch t tm s <> (Ok h, s').
Proof. intros sch t tm s h s' [-> | ->] H; start H; run_ok. Qed.
End Proofs2.

(* ---------- Unflagged runs do not depend on flagged updates ---------- *)
Section Silent.
Variable SV : Type.
Variable prep : R -> SV -> SV.
Variable rows : R -> SV -> list R.
Variables hyp hyp2 : SV -> list (SV * R) -> R -> SV * bool.
Variables para para2 : SV -> R -> R -> option (SV * bool).
Variable sadd : SV -> R -> R -> SV -> SV.
Hypothesis HA : forall o st tau n, hyp o st tau = (n, false) -> hyp2 o st tau = (n, false).
Hypothesis PA : forall o t tau n, para o t tau = Some (n, false) -> para2 o t tau = Some (n, false).

Definition agree {A} (m m2 : M SV A) : Prop :=
  forall s a s', m s = (Ok a, s') ->
    counters_le SV s s' /\ (counters_eq s s' -> m2 s = (Ok a, s')).

Ltac cnt := unfold counters_le, counters_eq in *; simpl in *; lia.

Lemma agree_hstep : forall old st tau tm,
  agree (hyperbolic_step SV rows hyp old st tau tm) (hyperbolic_step SV rows hyp2 old st tau tm).
Proof.
  intros old st tau tm s a s'. unfold hyperbolic_step.
  destruct (select_tau _ _ _); try discriminate.
  destruct (hyp old st a0) as [n []] eqn:E.
  - destruct (st_hyp SV s); intros Q; inversion Q; subst. split; [cnt|].
    intros C. exfalso. cnt.
  - rewrite (HA _ _ _ _ E). intros Q; inversion Q; subst. split; [cnt|auto].
Qed.

Lemma agree_pstep : forall old t st tau,
  agree (parabolic_step SV para old t st tau) (parabolic_step SV para2 old t st tau).
Proof.
  intros old t st tau s a s'. unfold parabolic_step. destruct st; try discriminate.
  destruct (para old t tau) as [[n []]|] eqn:E; [| |discriminate].
  - destruct (st_para SV s); intros Q; inversion Q; subst. split; [cnt|].
    intros C. exfalso. cnt.
  - rewrite (PA _ _ _ _ E). intros Q; inversion Q; subst. split; [cnt|auto].
Qed.

Lemma agree_bind : forall A B (m m2 : M SV A) (f f2 : A -> M SV B),
  agree m m2 -> (forall a, agree (f a) (f2 a)) -> agree (bind SV m f) (bind SV m2 f2).
Proof.
  intros A B m m2 f f2 Am Af s b s' H. apply bind_ok in H. destruct H as (a & s1 & H1 & H2).
  destruct (Am _ _ _ H1) as [L1 E1]. destruct (Af a _ _ _ H2) as [L2 E2].
  split; [cnt|]. intros C. unfold bind. rewrite E1 by cnt. apply E2. cnt.
Qed.

Lemma agree_set : forall v (A : Type) (h : A), agree (bind SV (set_vector SV v) (fun _ => ret SV h))
  (bind SV (set_vector SV v) (fun _ => ret SV h)).
Proof. intros v A h s a s' Q. unfold bind, set_vector, ret in *. inversion Q; subst. split; [cnt|auto]. Qed.

Lemma agree_prepare : forall t, agree (prepare_argument SV prep t) (prepare_argument SV prep t).
Proof. intros t s a s' Q. rewrite prepare_argument_eq in *. inversion Q; subst. split; [cnt|auto]. Qed.

Lemma agree_single : forall sch t tm,
  agree (single_step SV prep rows hyp para sadd sch t tm)
        (single_step SV prep rows hyp2 para2 sadd sch t tm).
Proof.
  intros sch t tm. destruct sch; simpl; unfold step_ssprk_22, step_ssprk_33, step_erk_11, step_erk_22,
    step_erk_33, step_erk_43, step_erk_54, step_strang_ssprk_33_cn, step_strang_erk_33_cn,
    step_strang_erk_43_cn, step_imex_11, step_imex_22, step_imex_33; cbv zeta;
  (apply agree_bind; [apply agree_prepare|intro U]);
  repeat (apply agree_bind; [first [apply agree_hstep | apply agree_pstep]|intro]);
  apply agree_set.
Qed.
End Silent.

(* ---------- Progress ---------- *)
Section Progress.
Variable SV : Type.
Variable prep : R -> SV -> SV.
Variable rows : R -> SV -> list R.
Variable hyp : SV -> list (SV * R) -> R -> SV * bool.
Variable para : SV -> R -> R -> option (SV * bool).
Variable sadd : SV -> R -> R -> SV -> SV.
Variable cfl : R.
Hypothesis rows_pos : forall u, Forall (fun r => 0 < r) (rows cfl u).
Hypothesis rows_some : forall u, rows cfl u <> [].

Lemma fold_Rmin_pos : forall l m, 0 < m -> Forall (fun r => 0 < r) l -> 0 < fold_right Rmin m l.
Proof.
  induction l; intros m M F; simpl; auto. inversion F; subst.
  apply Rmin_pos; auto.
Qed.

Lemma select_pos : forall tau tm u,
  match tm with Some m => 0 < m | None => True end -> 0 <= tau ->
  exists r, select_tau tau tm (rows cfl u) = Ok r /\ 0 < r.
Proof.
  intros tau tm u M T. unfold select_tau. pose proof (rows_pos u) as P. pose proof (rows_some u) as S1.
  assert (X : exists m, match tm, rows cfl u with
     | Some m, _ => Some (fold_right Rmin m (rows cfl u))
     | None, r :: rs => Some (fold_right Rmin r rs)
     | None, [] => None end = Some m /\ 0 < m).
  { destruct tm as [m|].
    - eexists. split; [reflexivity|]. apply fold_Rmin_pos; auto.
    - destruct (rows cfl u) as [|r rs]; [congruence|]. inversion P; subst.
      eexists. split; [reflexivity|]. apply fold_Rmin_pos; auto. }
  destruct X as (m & -> & Pm). destruct (Rlt_dec 0 m); [|lra].
  destruct (Req_EM_T tau 0); eexists; split; try reflexivity; lra.
Qed.

(** A computation that completes (or asks for a restart, unless both
    strategies are warn) from every state with the given CFL number. *)
Definition runs {A} (Q : A -> Prop) (m : M SV A) : Prop :=
  forall s, st_cfl _ s = cfl ->
    match m s with
    | (Ok a, s') => st_cfl _ s' = cfl /\ Q a
    | (Restart, s') => st_hyp _ s = raise_exception \/ st_para _ s = raise_exception
    | (Fail, _) => False
    end /\ st_hyp _ (snd (m s)) = st_hyp _ s /\ st_para _ (snd (m s)) = st_para _ s.

Lemma runs_bind : forall A B P Q (m : M SV A) (f : A -> M SV B),
  runs P m -> (forall a, P a -> runs Q (f a)) -> runs Q (bind SV m f).
Proof.
  intros A B P Q m f Rm Rf s C. unfold bind. destruct (Rm s C) as (X & E1 & E2).
  destruct (m s) as [[a| |] s1]; simpl in *; auto.
  destruct X as [C1 Pa]. destruct (Rf a Pa s1 C1) as (Y & E3 & E4).
  destruct (f a s1) as [[b| |] s2]; simpl in *; rewrite E1, E2 in *; auto.
Qed.

Lemma runs_hstep : forall old st tau tm,
  match tm with Some m => 0 < m | None => True end -> 0 <= tau ->
  runs (fun r => 0 < snd r) (hyperbolic_step SV rows hyp old st tau tm).
Proof.
  intros old st tau tm M T s C. unfold hyperbolic_step. rewrite C.
  destruct (select_pos tau tm old M T) as (r & -> & Pr).
  destruct (hyp old st r) as [n []]; [destruct (st_hyp SV s) eqn:E|]; simpl; auto.
Qed.

Lemma runs_pstep : forall old t tau, para old t tau <> None -> runs (fun _ => True) (parabolic_step SV para old t [] tau).
Proof.
  intros old t tau N s C. unfold parabolic_step.
  destruct (para old t tau) as [[n []]|]; [destruct (st_para SV s) eqn:E| |congruence]; simpl; auto.
Qed.

Lemma runs_set : forall v h, runs (fun _ => True) (bind SV (set_vector SV v) (fun _ => ret SV (h : R))).
Proof. intros v h s C. simpl. auto. Qed.

Lemma runs_prepare : forall t, runs (fun _ => True) (prepare_argument SV prep t).
Proof. intros t s C. rewrite prepare_argument_eq. simpl. auto. Qed.

Lemma runs_single : forall sch t tm, 0 < tm -> sch <> imex_22 -> sch <> imex_33 ->
  (explicit_scheme sch = true \/ forall u t tau, para u t tau <> None) ->
  runs (fun _ => True) (single_step SV prep rows hyp para sadd sch t tm).
Proof.
  intros sch t tm T N1 N2 NP. destruct sch; try congruence; simpl;
  unfold step_ssprk_22, step_ssprk_33, step_erk_11, step_erk_22,
    step_erk_33, step_erk_43, step_erk_54, step_strang_ssprk_33_cn, step_strang_erk_33_cn,
    step_strang_erk_43_cn, step_imex_11; cbv zeta;
  (eapply runs_bind; [apply runs_prepare|intros U _]);
  (eapply runs_bind; [apply runs_hstep; lra|intros r0 Pr; simpl in Pr]);
  repeat (eapply runs_bind; [first [apply runs_hstep; [exact I|lra] | apply runs_pstep; destruct NP as [NP|NP]; [discriminate NP|apply NP]]|intros ? _]);
  apply runs_set.
Qed.
End Progress.

(* ---------- TimeIntegrator::step ---------- *)
Section Step.
Variable SV : Type.
Variable prep : R -> SV -> SV.
Variable rows : R -> SV -> list R.
Variable hyp : SV -> list (SV * R) -> R -> SV * bool.
Variable para : SV -> R -> R -> option (SV * bool).
Variable sadd : SV -> R -> R -> SV -> SV.
Notation sstep := (single_step SV prep rows hyp para sadd).
Notation istep := (step SV prep rows hyp para sadd).

Lemma step_bang : forall sch c0 c1 t tf s,
  istep sch bang_bang_control c0 c1 t tf s =
  match sstep sch t (tf - t) (configured raise_exception raise_exception c1 s) with
  | (Restart, s1) => sstep sch t (tf - t) (configured warn warn c0 s1)
  | r => r
  end.
Proof. reflexivity. Qed.

Lemma step_none : forall sch c0 c1 t tf s,
  istep sch recovery_none c0 c1 t tf s =
  match sstep sch t (tf - t) s with
  | (Restart, s1) => (Fail, s1)
  | r => r
  end.
Proof. reflexivity. Qed.

Lemma step_tau : forall sch rc c0 c1 t tf s h s',
  istep sch rc c0 c1 t tf s = (Ok h, s') -> 0 < h /\ t + h <= tf.
Proof.
  intros sch rc c0 c1 t tf s h s'.
  destruct rc; [rewrite step_none | rewrite step_bang].
  - destruct (sstep sch t (tf - t) s) as [[x| |] s1] eqn:E; try discriminate.
    intros Q. inversion Q; subst. apply single_step_tau in E. lra.
  - destruct (sstep sch t (tf - t) (configured raise_exception raise_exception c1 s))
      as [[x| |] s1] eqn:E; try discriminate.
    + intros Q. inversion Q; subst. apply single_step_tau in E. lra.
    + intros Q. apply single_step_tau in Q. lra.
Qed.

Lemma step_no_restart : forall sch rc c0 c1 t tf s, fst (istep sch rc c0 c1 t tf s) <> Restart.
Proof.
  intros sch rc c0 c1 t tf s.
  destruct rc; [rewrite step_none | rewrite step_bang].
  - destruct (sstep sch t (tf - t) s) as [[x| |] s1] eqn:E; discriminate.
  - destruct (sstep sch t (tf - t) (configured raise_exception raise_exception c1 s))
      as [[x| |] s1] eqn:E; try discriminate.
    destruct (single_step_frame SV prep rows hyp para sadd sch t (tf - t) (configured warn warn c0 s1))
      as [F _].
    destruct (sstep sch t (tf - t) (configured warn warn c0 s1)) as [o s2].
    destruct F as (_ & _ & _ & _ & _ & N). apply N; reflexivity.
Qed.

Lemma step_progress : forall sch c0 c1 t tf s,
  (forall c u, Forall (fun r => 0 < r) (rows c u)) ->
  (forall c u, rows c u <> []) ->
  t < tf -> sch <> imex_22 -> sch <> imex_33 ->
  (explicit_scheme sch = true \/ forall u t tau, para u t tau <> None) ->
  exists h s', istep sch bang_bang_control c0 c1 t tf s = (Ok h, s').
Proof.
  intros sch c0 c1 t tf s P S1 T N1 N2 NP. rewrite step_bang.
  pose proof (runs_single SV prep rows hyp para sadd c1 (P c1) (S1 c1) sch t (tf - t) ltac:(lra) N1 N2 NP
    (configured raise_exception raise_exception c1 s) eq_refl) as (X & _).
  destruct (sstep sch t (tf - t) (configured raise_exception raise_exception c1 s))
      as [[x| |] s1] eqn:E; [eauto| |contradiction].
  pose proof (runs_single SV prep rows hyp para sadd c0 (P c0) (S1 c0) sch t (tf - t) ltac:(lra) N1 N2 NP
    (configured warn warn c0 s1) eq_refl) as (Y & _).
  destruct (sstep sch t (tf - t) (configured warn warn c0 s1)) as [[x| |] s2] eqn:E2; [eauto| |contradiction].
  destruct Y; discriminate.
Qed.

(** First attempt succeeds: nothing was flagged. *)
Lemma step_bang_cases : forall sch c0 c1 t tf s o s',
  istep sch bang_bang_control c0 c1 t tf s = (o, s') ->
  (o <> Restart) /\
  ((sstep sch t (tf - t) (configured raise_exception raise_exception c1 s) = (o, s') /\
    counters_eq s s' /\ st_cfl _ s' = c1) \/
   (exists s1, sstep sch t (tf - t) (configured raise_exception raise_exception c1 s) = (Restart, s1) /\
      st_vector _ s1 = prep t (st_vector _ s) /\
      total_restarts s1 = Datatypes.S (total_restarts s) /\
      total_warnings s1 = total_warnings s /\
      sstep sch t (tf - t) (configured warn warn c0 s1) = (o, s') /\
      st_cfl _ s' = c0 /\ total_restarts s' = Datatypes.S (total_restarts s))).
Proof.
  intros sch c0 c1 t tf s o s' H.
  pose proof (step_no_restart sch bang_bang_control c0 c1 t tf s) as N. rewrite H in N. simpl in N.
  split; [assumption|].
  rewrite step_bang in H.
  destruct (single_step_frame SV prep rows hyp para sadd sch t (tf - t)
     (configured raise_exception raise_exception c1 s)) as [F V].
  destruct (sstep sch t (tf - t) (configured raise_exception raise_exception c1 s))
      as [[x| |] s1] eqn:E.
  - left. inversion H; subst. destruct F as (C & L & R1 & _ & W & _).
    destruct (R1 ltac:(discriminate)) as [e1 e2]. specialize (W eq_refl eq_refl).
    destruct C as (cc & _ & _). split; [reflexivity|]. split; [|exact cc].
    unfold counters_eq, counters_le, total_warnings in *. simpl in *. lia.
  - right. exists s1. split; [reflexivity|].
    destruct F as (C & L & R1 & R2 & W & _). specialize (W eq_refl eq_refl). specialize (R2 eq_refl).
    simpl in V.
    destruct (single_step_frame SV prep rows hyp para sadd sch t (tf - t) (configured warn warn c0 s1))
      as [F2 _].
    rewrite H in F2. destruct F2 as (C2 & L2 & R3 & _ & _ & _).
    destruct (R3 N) as [e1 e2]. destruct C2 as (cc & _ & _).
    split; [exact V|]. split; [exact R2|]. split; [exact W|]. split; [exact H|].
    split; [exact cc|].
    unfold total_restarts in *. simpl in *. lia.
  - left. inversion H; subst. destruct F as (C & L & R1 & _ & W & _).
    destruct (R1 ltac:(discriminate)) as [e1 e2]. specialize (W eq_refl eq_refl).
    destruct C as (cc & _ & _). split; [reflexivity|]. split; [|exact cc].
    unfold counters_eq, counters_le, total_warnings in *. simpl in *. lia.
Qed.

Lemma step_none_cases : forall sch c0 c1 t tf s o s',
  st_hyp _ s = warn -> st_para _ s = warn ->
  istep sch recovery_none c0 c1 t tf s = (o, s') ->
  sstep sch t (tf - t) s = (o, s') /\ o <> Restart /\ same_config s s' /\
  total_restarts s' = total_restarts s.
Proof.
  intros sch c0 c1 t tf s o s' Hh Hp H. rewrite step_none in H.
  destruct (single_step_frame SV prep rows hyp para sadd sch t (tf - t) s) as [F _].
  destruct (sstep sch t (tf - t) s) as [o1 s1]. destruct F as (C & L & R1 & R2 & W & N).
  specialize (N Hh Hp).
  assert (E : (o, s') = (o1, s1)) by (destruct o1; congruence). inversion E; subst.
  destruct (R1 N) as [e1 e2].
  split; [reflexivity|]. split; [assumption|]. split; [assumption|].
  unfold total_restarts. lia.
Qed.
End Step.

(** prepare() *)
Lemma C16_prepare_proof : forall SV identity sch cfl_min cfl_max (s : mstate SV),
  (fst (prepare SV identity sch cfl_min cfl_max s) = Ok tt <->
   0 < cfl_min <= cfl_max /\ identity = explicit_scheme sch) /\
  (fst (prepare SV identity sch cfl_min cfl_max s) = Ok tt ->
   snd (prepare SV identity sch cfl_min cfl_max s) = configured (st_hyp _ s) (st_para _ s) cfl_max s).
Proof.
  intros SV identity sch c0 c1 s. unfold prepare.
  destruct (Rlt_dec 0 c0) as [A|A]; [destruct (Rle_dec c0 c1) as [B|B]|].
  - destruct sch, identity; simpl; (split; [split; intros Q; [discriminate Q || (split; [lra|reflexivity])|destruct Q as [_ Q]; discriminate Q || reflexivity]|intros Q; discriminate Q || reflexivity]).
  - simpl. split; [split; [discriminate|intros; lra]|discriminate].
  - simpl. split; [split; [discriminate|intros; lra]|discriminate].
Qed.
