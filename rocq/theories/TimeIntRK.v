From Coq Require Import Reals List Lra Lia FunctionalExtensionality.
From Verif Require Import TimeInt TimeIntSpec TimeIntProofs.
Import ListNotations.
Local Open Scope R_scope.

(* ---------- Runge-Kutta form ---------- *)
Section RK.
Context {I : Type}.
Variables F D : R -> R -> vec I -> vec I.
Variable rows : R -> tvec I -> list R.
Variable flag : tvec I -> list (tvec I * R) -> R -> bool.
Variable para : tvec I -> R -> R -> option (tvec I * bool).
Notation sstep := (single_step (tvec I) tprep rows (rk_hyp F D flag) para tsadd).


Ltac vsimp := unfold vadd, vscal, vzero; simpl; unfold vadd, vscal, vzero.
Lemma arg_eq : forall (G : R -> R -> vec I -> vec I) tau t1 t2 v1 v2,
  t1 = t2 -> v1 = v2 -> G tau t1 v1 = G tau t2 v2.
Proof. intros; subst; reflexivity. Qed.
Ltac canon k G :=
  repeat match goal with
  | |- context [G ?tau ?t2 ?v2] =>
      replace (G tau t2 v2) with k
        by (unfold k; apply arg_eq; [field | let i := fresh in extensionality i; vsimp; field])
  end.
Ltac stage F D :=
  match goal with
  | |- context [F ?tau ?t2 ?v2] =>
      lazymatch v2 with
      | context [F] => fail
      | context [D] => fail
      | _ => let k := fresh "k" in let d := fresh "d" in
             pose (k := F tau t2 v2); pose (d := D tau t2 v2);
             progress (canon k F; canon d D); clearbody k d
      end
  end.
Ltac gather :=
  repeat match goal with
  | H : fst ?r = fst _ |- context [fst ?r] => rewrite H; clear H
  end.
Ltac rk_tac H :=
  start H; run_ok; gather;
  match goal with
  | |- context [snd ?r] =>
      match goal with P : 0 < snd r |- _ =>
        let tau := fresh "tau" in set (tau := snd r) in *; clearbody tau end
  end;
  match goal with |- context [st_vector _ ?s] =>
    let u := fresh "u" in
    unfold rk_hyp, unlimited, tprep; simpl; generalize (fst (st_vector _ s)); intro u end;
  unfold rk_substep, rk_step, ark_step, tsadd; simpl;
  unfold substeps; simpl;
  unfold a_21, c54;
  repeat match goal with
  | |- context [F (?n * ?tau / ?n) ] => replace (n * tau / n) with tau by field
  | |- context [F (?tau / 1) ] => replace (tau / 1) with tau by field
  end;
  repeat stage F D;
  let i := fresh "i" in extensionality i; vsimp; field.

Lemma erk_11_rk : forall t tm s h s', sstep erk_11 t tm s = (Ok h, s') ->
  fst (st_vector _ s') =
  rk_substep (F (h / 1)) (D (h / 1)) doc_erk_11 t h (fst (st_vector _ s)).
Proof. intros t tm s h s' H. rk_tac H. Qed.

Lemma erk_22_rk : forall t tm s h s', sstep erk_22 t tm s = (Ok h, s') ->
  fst (st_vector _ s') =
  rk_substep (F (h / 2)) (D (h / 2)) doc_erk_22 t h (fst (st_vector _ s)).
Proof. intros t tm s h s' H. rk_tac H. Qed.

Lemma erk_33_rk : forall t tm s h s', sstep erk_33 t tm s = (Ok h, s') ->
  fst (st_vector _ s') =
  rk_substep (F (h / 3)) (D (h / 3)) doc_erk_33 t h (fst (st_vector _ s)).
Proof. intros t tm s h s' H. rk_tac H. Qed.

Lemma erk_43_rk : forall t tm s h s', sstep erk_43 t tm s = (Ok h, s') ->
  fst (st_vector _ s') =
  rk_substep (F (h / 4)) (D (h / 4)) doc_erk_43 t h (fst (st_vector _ s)).
Proof. intros t tm s h s' H. rk_tac H. Qed.

Lemma ssprk_22_rk : forall t tm s h s', sstep ssprk_22 t tm s = (Ok h, s') ->
  fst (st_vector _ s') =
  rk_step (fun t u => vadd (F h t u) (D h t u)) heun t h (fst (st_vector _ s)).
Proof. intros t tm s h s' H. rk_tac H. Qed.

Lemma ssprk_33_rk : forall t tm s h s', sstep ssprk_33 t tm s = (Ok h, s') ->
  fst (st_vector _ s') =
  rk_step (fun t u => vadd (F h t u) (D h t u)) doc_ssprk_33 t h (fst (st_vector _ s)).
Proof. intros t tm s h s' H. rk_tac H. Qed.



(** The compositions above as functions of the initial vector. *)
Ltac core_tac :=
  match goal with v : tvec I |- _ =>
    unfold unlimited, tprep; simpl; generalize (fst v); let u := fresh "u" in intro u end;
  unfold rk_substep, rk_step, ark_step, tsadd; simpl;
  unfold substeps; simpl;
  repeat stage F D;
  let i := fresh "i" in extensionality i; vsimp; field.

Lemma ssprk_33_core : forall t tau v,
  fst (let U := tprep t v in
  let T0 := tprep (t + 1 * tau) (unlimited F D U [] tau) in
  let T1 := tsadd (unlimited F D T0 [] tau) (1 / 4) (3 / 4) U in
  let T1 := tprep (t + / 2 * tau) T1 in
  tsadd (unlimited F D T1 [] tau) (2 / 3) (1 / 3) U) =
  rk_step (fun t u => vadd (F tau t u) (D tau t u)) doc_ssprk_33 t tau (fst v).
Proof. intros t tau v. cbv zeta. core_tac. Qed.

Lemma erk_33_core : forall t tau v,
  fst (let U := tprep t v in
  let T0 := tprep (t + 1 * tau) (unlimited F D U [] tau) in
  let T1 := tprep (t + 2 * tau) (unlimited F D T0 [(U, -1)] tau) in
  unlimited F D T1 [(U, 3 / 4); (T0, -2)] tau) =
  rk_substep (F tau) (D tau) doc_erk_33 t (3 * tau) (fst v).
Proof. intros t tau v. cbv zeta. core_tac. Qed.

Lemma erk_43_core : forall t tau v,
  fst (let U := tprep t v in
  let T0 := tprep (t + 1 * tau) (unlimited F D U [] tau) in
  let T1 := tprep (t + 2 * tau) (unlimited F D T0 [(U, -1)] tau) in
  let T2 := tprep (t + 3 * tau) (unlimited F D T1 [(T0, -1)] tau) in
  unlimited F D T2 [(T0, 5 / 3); (T1, -10 / 3)] tau) =
  rk_substep (F tau) (D tau) doc_erk_43 t (4 * tau) (fst v).
Proof. intros t tau v. cbv zeta. core_tac. Qed.

(** The coefficients realised by erk 54. *)
Definition real_54 : tableau :=
  {| tab_rows :=
       [(0, []);
        (1/5, [1/5]);
        (2/5, [a_31; 2/5 - a_31]);
        (3/5, [a_41; 2/5 - a_31 + (a_42 - a_32); 1/5 - (a_41 - a_31) - (a_42 - a_32)]);
        (4/5, [a_51; 2/5 - a_31 + (a_52 - a_32);
               1/5 - (a_41 - a_31) - (a_42 - a_32) + (a_53 - a_43);
               1/5 - (a_51 - a_41) - (a_52 - a_42) - (a_53 - a_43)])];
     tab_b :=
       [a_61; 2/5 - a_31 + (a_62 - a_32);
               1/5 - (a_41 - a_31) - (a_42 - a_32) + (a_63 - a_43);
               1/5 - (a_51 - a_41) - (a_52 - a_42) - (a_53 - a_43) + (a_64 - a_54);
               1/5 - (a_61 - a_51) - (a_62 - a_52) - (a_63 - a_53) - (a_64 - a_54)] |}.

Lemma erk_54_rk : forall t tm s h s', sstep erk_54 t tm s = (Ok h, s') ->
  fst (st_vector _ s') = rk_substep (F (h / 5)) (D (h / 5)) real_54 t h (fst (st_vector _ s)).
Proof. intros t tm s h s' H. rk_tac H. Qed.
End RK.


Ltac num := unfold a_21, a_31, a_32, a_41, a_42, a_43, a_51, a_52, a_53, a_54, a_61, a_62, a_63, a_64.
Ltac lists := repeat match goal with
  | |- Forall2 _ _ _ => constructor
  | |- Forall _ _ => constructor
  | |- _ /\ _ => split
  end; simpl; try reflexivity; try lra; try (apply Rabs_le; lra).

Lemma real_54_close : close_tableau (1 / 1000000000000000) real_54 doc_erk_54.
Proof. unfold close_tableau, real_54, doc_erk_54; simpl; num. lists; lists. Qed.

Ltac orders :=
  let q := fresh "q" in let Hq := fresh "Hq" in intros q Hq;
  destruct (Nat.eq_dec q 1) as [-> | ?]; [|destruct (Nat.eq_dec q 2) as [-> | ?];
    [|destruct (Nat.eq_dec q 3) as [-> | ?]; [|destruct (Nat.eq_dec q 4) as [-> | ?]]]];
  try (exfalso; lia).

Lemma real_54_order : order_up_to real_54 4 (1 / 1000000000000000).
Proof.
  split.
  - orders; unfold residual, real_54, tab_A, tab_c, pw; simpl; num; lists.
  - unfold real_54; simpl; num. lists.
Qed.

Ltac order_tac :=
  split; [orders; unfold residual, tab_A, tab_c, pw; simpl; lists
         | simpl; lists].
Lemma erk_22_order : order_up_to doc_erk_22 2 0. Proof. order_tac. Qed.
Lemma heun_order : order_up_to heun 2 0. Proof. order_tac. Qed.
Lemma erk_11_order : order_up_to doc_erk_11 1 0. Proof. order_tac. Qed.
Lemma erk_33_order : order_up_to doc_erk_33 3 0. Proof. order_tac. Qed.
Lemma erk_43_order : order_up_to doc_erk_43 3 0. Proof. order_tac. Qed.
Lemma ssprk_33_order : order_up_to doc_ssprk_33 3 0. Proof. order_tac. Qed.

(* ---------- Strang splitting ---------- *)
Section Strang.
Context {I : Type}.
Variables F D B : R -> R -> vec I -> vec I.
Variable rows : R -> tvec I -> list R.
Variable flag : tvec I -> list (tvec I * R) -> R -> bool.
Variable pflag : tvec I -> R -> R -> bool.
Notation sstep := (single_step (tvec I) tprep rows (rk_hyp F D flag) (be_para B pflag) tsadd).

Ltac vsimp := unfold vadd, vscal, vzero; simpl; unfold vadd, vscal, vzero.
Lemma be_para_ok o t tau p b : be_para B pflag o t tau = Some (p, b) -> p = (B tau t (fst o), t + tau).
Proof using Type. intros H. injection H as <- <-. reflexivity. Qed.
Ltac gather :=
  repeat match goal with H : be_para _ _ _ _ _ = Some _ |- _ => apply be_para_ok in H end;
  repeat match goal with
  | H : fst ?r = fst _ |- context [fst ?r] => rewrite H
  | H : ?p = (B _ _ _, _) |- context [?p] => rewrite H
  end.
Ltac gen_tau :=
  match goal with
  | |- context [snd ?r] =>
      match goal with P : 0 < snd r |- _ =>
        let tau := fresh "tau" in set (tau := snd r) in *; clearbody tau end
  end.
Lemma strang_ssprk_33_split : forall t tm s h s',
  sstep strang_ssprk_33_cn t tm s = (Ok h, s') ->
  fst (st_vector _ s') =
  (let rk := rk_step (fun t u => vadd (F (h / 2) t u) (D (h / 2) t u)) doc_ssprk_33 in
   rk (t + h / 2) (h / 2) (crank_nicolson B (h / 2) t (rk t (h / 2) (fst (st_vector _ s))))).
Proof.
  intros t tm s h s' H. cbv zeta. start H. run_ok. gather. gen_tau.
  replace (2 * tau / 2) with tau by field.
  unfold rk_hyp, be_para; cbn [fst]. generalize (st_vector (tvec I) s). intro v.
  rewrite <- (ssprk_33_core F D t tau v). cbv zeta.
  replace (t + 2 * tau) with (t + 1 * tau + 1 * tau) by ring.
  replace (t + 3 / 2 * tau) with (t + 1 * tau + / 2 * tau) by field.
  etransitivity; [apply (ssprk_33_core F D (t + 1 * tau) tau)|].
  rewrite Rmult_1_l. reflexivity.
Qed.

Lemma strang_erk_33_split : forall t tm s h s',
  sstep strang_erk_33_cn t tm s = (Ok h, s') ->
  fst (st_vector _ s') =
  (let rk := rk_substep (F (h / 6)) (D (h / 6)) doc_erk_33 in
   rk (t + h / 2) (h / 2) (crank_nicolson B (h / 2) t (rk t (h / 2) (fst (st_vector _ s))))).
Proof.
  intros t tm s h s' H. cbv zeta. start H. run_ok. gather. gen_tau.
  replace (6 * tau / 6) with tau by field. replace (6 * tau / 2) with (3 * tau) by field.
  unfold rk_hyp, be_para; cbn [fst]. generalize (st_vector (tvec I) s). intro v.
  rewrite <- (erk_33_core F D t tau v). cbv zeta.
  replace (t + 4 * tau) with (t + 3 * tau + 1 * tau) by ring.
  replace (t + 5 * tau) with (t + 3 * tau + 2 * tau) by ring.
  etransitivity; [apply (erk_33_core F D (t + 3 * tau) tau)|]. reflexivity.
Qed.

Lemma strang_erk_43_split : forall t tm s h s',
  sstep strang_erk_43_cn t tm s = (Ok h, s') ->
  fst (st_vector _ s') =
  (let rk := rk_substep (F (h / 8)) (D (h / 8)) doc_erk_43 in
   rk (t + h / 2) (h / 2) (crank_nicolson B (h / 2) t (rk t (h / 2) (fst (st_vector _ s))))).
Proof.
  intros t tm s h s' H. cbv zeta. start H. run_ok. gather. gen_tau.
  replace (8 * tau / 8) with tau by field. replace (8 * tau / 2) with (4 * tau) by field.
  unfold rk_hyp, be_para; cbn [fst]. generalize (st_vector (tvec I) s). intro v.
  rewrite <- (erk_43_core F D t tau v). cbv zeta.
  replace (t + 5 * tau) with (t + 4 * tau + 1 * tau) by ring.
  replace (t + 6 * tau) with (t + 4 * tau + 2 * tau) by ring.
  replace (t + 7 * tau) with (t + 4 * tau + 3 * tau) by ring.
  etransitivity; [apply (erk_43_core F D (t + 4 * tau) tau)|]. reflexivity.
Qed.

Lemma imex_11_split : forall t tm s h s',
  sstep imex_11 t tm s = (Ok h, s') ->
  fst (st_vector _ s') = B h t (rk_substep (F h) (D h) doc_erk_11 t h (fst (st_vector _ s))).
Proof.
  intros t tm s h s' H. start H. run_ok. gather. rewrite Rmult_1_l. simpl.
  apply arg_eq; [reflexivity|]. extensionality i. unfold rk_substep, ark_step, substeps. simpl.
  set (tau := snd r) in *. clearbody tau. set (u := fst (st_vector (tvec I) s)).
  replace (t + 0 * tau) with t by ring.
  replace (vadd u (vscal tau (vadd vzero vzero))) with u.
  2:{ extensionality j. vsimp. ring. }
  vsimp. field.
Qed.
End Strang.

