(** * Elements and quadratures in one direction: proofs *)
From Coq Require Import Reals List Arith Bool Lia Lra.
From Verif Require Import RVec Assembly AssemblySpec Discretization DiscretizationSpec.
Import ListNotations.
Local Open Scope R_scope.

(** ** Polynomials *)
Lemma peval_padd P : forall Q x, peval (padd P Q) x = peval P x + peval Q x.
Proof. induction P as [|a P IH]; intros [|b Q] x; cbn; try ring. rewrite IH. ring. Qed.
Lemma peval_pscal c P x : peval (pscal c P) x = c * peval P x.
Proof. induction P as [|a P IH]; cbn; [ring|]. change (map (Rmult c) P) with (pscal c P). rewrite IH. ring. Qed.
Lemma peval_pmul P Q x : peval (pmul P Q) x = peval P x * peval Q x.
Proof. induction P as [|a P IH]; cbn; [ring|]. rewrite peval_padd, peval_pscal. cbn. rewrite IH. ring. Qed.

Lemma pderiv_correct P x : derivable_pt_lim (peval P) x (peval (pderiv P) x).
Proof.
  induction P as [|a P IH]; cbn.
  - apply derivable_pt_lim_const.
  - rewrite peval_padd. cbn. replace (peval P x + (0 + x * peval (pderiv P) x)) with (0 + (1 * peval P x + x * peval (pderiv P) x)) by ring.
    apply (derivable_pt_lim_plus (fct_cte a) (fun y => y * peval P y)); [apply derivable_pt_lim_const|].
    apply (derivable_pt_lim_mult id (peval P)); [apply derivable_pt_lim_id|exact IH].
Qed.

Lemma pderiv_padd P : forall Q x, peval (pderiv (padd P Q)) x = peval (pderiv P) x + peval (pderiv Q) x.
Proof. induction P as [|a P IH]; intros [|b Q] x; cbn; try ring. rewrite !peval_padd. cbn. rewrite IH. ring. Qed.
Lemma pderiv_pscal c P x : peval (pderiv (pscal c P)) x = c * peval (pderiv P) x.
Proof. induction P as [|a P IH]; cbn; [ring|]. change (map (Rmult c) P) with (pscal c P). rewrite !peval_padd, peval_pscal. cbn. rewrite IH. ring. Qed.
Lemma pderiv_pmul P Q x : peval (pderiv (pmul P Q)) x = peval (pderiv P) x * peval Q x + peval P x * peval (pderiv Q) x.
Proof.
  induction P as [|a P IH]; cbn; [ring|]. rewrite pderiv_padd, pderiv_pscal. cbn. rewrite !peval_padd. cbn. rewrite IH, peval_pmul. ring.
Qed.

Lemma length_padd P : forall Q, length (padd P Q) = Nat.max (length P) (length Q).
Proof. induction P as [|a P IH]; intros [|b Q]; cbn; try reflexivity. rewrite IH. reflexivity. Qed.
Lemma length_pmul P Q : (1 <= length Q)%nat -> (length (pmul P Q) <= length P + length Q - 1)%nat.
Proof.
  intros H. induction P as [|a P IH]; [cbn; lia|]. cbn [pmul]. rewrite length_padd. unfold pscal. rewrite map_length. cbn [length].
  destruct P as [|b P]; [cbn [pmul length]; lia|]. set (m := length (pmul (b :: P) Q)) in *. clearbody m. cbn [length] in IH |- *. lia.
Qed.
(** ** Exactness *)
Lemma int_from_padd P : forall k Q, integral_from k (padd P Q) = integral_from k P + integral_from k Q.
Proof. induction P as [|a P IH]; intros k [|b Q]; cbn -[INR]; try ring. rewrite IH. unfold Rdiv. ring. Qed.

Fixpoint sum_from (P : list R) : R := match P with [] => 0 | c :: P' => c + sum_from P' end.

Lemma sum_eval1 P : sum_from P = peval P 1.
Proof. induction P as [|a P IH]; cbn; [reflexivity|]. rewrite IH. ring. Qed.

Fixpoint shifted (k : nat) (P : list R) : list R := match P with [] => [] | c :: P' => (INR k * c) :: shifted (S k) P' end.

Lemma padd_nil P : padd P [] = P. Proof. destruct P; reflexivity. Qed.

Lemma shifted_S P : forall k, shifted (S k) P = padd P (shifted k P).
Proof. induction P as [|a P IH]; intros k; cbn -[INR]; [reflexivity|]. rewrite IH, S_INR. f_equal. ring. Qed.

Lemma shifted_0 P x : peval (shifted 0 P) x = x * peval (pderiv P) x.
Proof.
  induction P as [|a P IH]; [cbn; ring|]. cbn -[INR]. rewrite shifted_S, !peval_padd, IH. cbn. ring.
Qed.

Lemma pderiv_as c P x : peval (pderiv (c :: P)) x = peval (shifted 1 P) x.
Proof. rewrite shifted_S. cbn. rewrite !peval_padd. cbn. rewrite shifted_0. ring. Qed.

Lemma int_shifted P : forall k, integral_from k (shifted (S k) P) = sum_from P.
Proof.
  induction P as [|a P IH]; intros k; cbn -[INR]; [reflexivity|]. rewrite IH. f_equal. field. apply not_0_INR. lia.
Qed.

Definition quad (n : nat) (f : R -> R) : R := rsum n (fun q => gauss_weight n q * f (gauss_point n q)).

Lemma quad_ext n f g : (forall x, f x = g x) -> quad n f = quad n g.
Proof. intros H. apply rsum_ext. intros. rewrite H. reflexivity. Qed.
Lemma quad_plus n f g : quad n (fun x => f x + g x) = quad n f + quad n g.
Proof. unfold quad. rewrite <- rsum_plus. apply rsum_ext. intros. ring. Qed.
Lemma quad_scal n c f : quad n (fun x => c * f x) = c * quad n f.
Proof. unfold quad. rewrite <- rsum_scal. apply rsum_ext. intros. ring. Qed.

Lemma sqrt_sq x : 0 <= x -> sqrt x * sqrt x = x.
Proof. apply sqrt_sqrt. Qed.

Lemma moments n k : (1 <= n <= 4)%nat -> (k < 2 * n)%nat -> quad n (fun x => x ^ k) = 1 / INR (S k).
Proof.
  intros Hn Hk. unfold quad. destruct n as [|[|[|[|[|n]]]]]; [lia| | | | |lia].
  - cbn [rsum gauss_weight gauss_point]. destruct k as [|[|k]]; [| |lia]; cbn; field.
  - cbn [rsum gauss_weight gauss_point nth]. assert (S : sqrt 3 * sqrt 3 = 3) by (apply sqrt_sq; lra). set (s := sqrt 3) in *. clearbody s.
    assert (S2 : s ^ 2 = 3) by (rewrite <- S; ring).
    destruct k as [|[|[|[|k]]]]; [| | | |lia]; cbn [INR pow]; nra.
  - cbn [rsum gauss_weight gauss_point nth]. assert (S : sqrt (3 / 5) * sqrt (3 / 5) = 3 / 5) by (apply sqrt_sq; lra). set (s := sqrt (3 / 5)) in *. clearbody s.
    assert (S2 : s ^ 2 = 3 / 5) by (rewrite <- S; ring).
    assert (S4 : s ^ 4 = 9 / 25) by (replace (s ^ 4) with (s ^ 2 * s ^ 2) by ring; rewrite S2; field).
    destruct k as [|[|[|[|[|[|k]]]]]]; [| | | | | |lia]; cbn [INR pow]; lra.
  - cbn [rsum gauss_weight gauss_point nth]. assert (U : sqrt 30 * sqrt 30 = 30) by (apply sqrt_sq; lra).
    assert (U5 : sqrt 30 <= 6). { rewrite <- (sqrt_square 6) by lra. apply sqrt_le_1_alt. lra. } pose proof (sqrt_pos 30) as U0.
    assert (A : sqrt ((15 - 2 * sqrt 30) / 35) * sqrt ((15 - 2 * sqrt 30) / 35) = (15 - 2 * sqrt 30) / 35) by (apply sqrt_sq; lra).
    assert (B : sqrt ((15 + 2 * sqrt 30) / 35) * sqrt ((15 + 2 * sqrt 30) / 35) = (15 + 2 * sqrt 30) / 35) by (apply sqrt_sq; lra).
    set (u := sqrt 30) in *. set (s := sqrt ((15 - 2 * u) / 35)) in *. set (t := sqrt ((15 + 2 * u) / 35)) in *. clearbody s t. clearbody u.
    assert (U2 : u ^ 2 = 30) by (rewrite <- U; ring). assert (A2 : s ^ 2 = (15 - 2 * u) / 35) by (rewrite <- A; ring). assert (B2 : t ^ 2 = (15 + 2 * u) / 35) by (rewrite <- B; ring).
    assert (E : forall z, z ^ 4 = z ^ 2 * z ^ 2 /\ z ^ 6 = z ^ 2 * z ^ 2 * z ^ 2) by (intros; split; ring).
    assert (A4 : s ^ 4 = (345 - 60 * u) / 1225) by (rewrite (proj1 (E s)), A2; replace (_ * _) with ((225 - 60 * u + 4 * u ^ 2) / 1225) by field; rewrite U2; field).
    assert (B4 : t ^ 4 = (345 + 60 * u) / 1225) by (rewrite (proj1 (E t)), B2; replace (_ * _) with ((225 + 60 * u + 4 * u ^ 2) / 1225) by field; rewrite U2; field).
    assert (A6 : s ^ 6 = (8775 - 1590 * u) / 42875).
    { rewrite (proj2 (E s)), <- (proj1 (E s)), A4, A2. replace (_ * _) with ((5175 - 1590 * u + 120 * u ^ 2) / 42875) by field. rewrite U2. field. }
    assert (B6 : t ^ 6 = (8775 + 1590 * u) / 42875).
    { rewrite (proj2 (E t)), <- (proj1 (E t)), B4, B2. replace (_ * _) with ((5175 + 1590 * u + 120 * u ^ 2) / 42875) by field. rewrite U2. field. }
    assert (uA2 : u * s ^ 2 = (15 * u - 60) / 35) by (rewrite A2; replace (_ * _) with ((15 * u - 2 * u ^ 2) / 35) by field; rewrite U2; field).
    assert (uB2 : u * t ^ 2 = (15 * u + 60) / 35) by (rewrite B2; replace (_ * _) with ((15 * u + 2 * u ^ 2) / 35) by field; rewrite U2; field).
    assert (uA4 : u * s ^ 4 = (345 * u - 1800) / 1225) by (rewrite A4; replace (_ * _) with ((345 * u - 60 * u ^ 2) / 1225) by field; rewrite U2; field).
    assert (uB4 : u * t ^ 4 = (345 * u + 1800) / 1225) by (rewrite B4; replace (_ * _) with ((345 * u + 60 * u ^ 2) / 1225) by field; rewrite U2; field).
    assert (uA6 : u * s ^ 6 = (8775 * u - 47700) / 42875) by (rewrite A6; replace (_ * _) with ((8775 * u - 1590 * u ^ 2) / 42875) by field; rewrite U2; field).
    assert (uB6 : u * t ^ 6 = (8775 * u + 47700) / 42875) by (rewrite B6; replace (_ * _) with ((8775 * u + 1590 * u ^ 2) / 42875) by field; rewrite U2; field).
    clear A B U E. destruct k as [|[|[|[|[|[|[|[|k]]]]]]]]; [| | | | | | | |lia]; cbn [INR]; lra.
Qed.

Lemma exact_from n P : (1 <= n <= 4)%nat -> forall k, (k + length P <= 2 * n)%nat -> quad n (fun x => x ^ k * peval P x) = integral_from k P.
Proof.
  intros Hn. induction P as [|c P IH]; intros k Hk; cbn -[INR pow] in *.
  - rewrite (quad_ext n _ (fun x => 0 * 1)) by (intros; ring). rewrite quad_scal. ring.
  - rewrite (quad_ext n _ (fun x => c * x ^ k + x ^ S k * peval P x)) by (intros; cbn; ring).
    rewrite quad_plus, quad_scal, moments, IH by lia. unfold Rdiv. ring.
Qed.

Lemma exact n P : (1 <= n <= 4)%nat -> (length P <= 2 * n)%nat -> quad n (peval P) = integral01 P.
Proof. intros Hn H. unfold integral01. rewrite <- (exact_from n P Hn 0) by lia. apply quad_ext. intros. cbn. ring. Qed.

Lemma length_shifted P : forall k, length (shifted k P) = length P.
Proof. induction P; intros; cbn; [reflexivity|]. rewrite IHP. reflexivity. Qed.

Lemma exact_deriv n P : (1 <= n <= 4)%nat -> (length P <= 2 * n + 1)%nat -> quad n (peval (pderiv P)) = peval P 1 - peval P 0.
Proof.
  intros Hn H. destruct P as [|c P].
  - cbn. rewrite (quad_ext n _ (fun x => 0 * 1)) by (intros; ring). rewrite quad_scal. ring.
  - rewrite (quad_ext n _ _ (pderiv_as c P)). rewrite (exact n (shifted 1 P) Hn) by (rewrite length_shifted; cbn in H; lia).
    unfold integral01. rewrite int_shifted, sum_eval1. cbn. ring.
Qed.

(** ** Lagrange polynomials *)
Lemma sqrt5 : sqrt 5 * sqrt 5 = 5 /\ 2 < sqrt 5 < 3.
Proof.
  assert (H : sqrt 5 * sqrt 5 = 5) by (apply sqrt_sq; lra). split; [exact H|]. pose proof (sqrt_pos 5). split; nra.
Qed.

Ltac nodes p i :=
  destruct p as [|[|[|[|p]]]]; [| | | |exfalso; lia];
  (destruct i as [|[|[|[|i]]]]; try (exfalso; lia)).

Lemma length_lagrange p i : (p <= 3)%nat -> (i <= p)%nat -> length (lagrange p i) = S p.
Proof. intros Hp Hi. nodes p i; reflexivity. Qed.

Lemma inner_nodes : let u := (1 - sqrt 5 / 5) / 2 in let v := (1 + sqrt 5 / 5) / 2 in
  0 < u < v /\ v < 1 /\ u + v = 1 /\ u * v = 1 / 5.
Proof. cbv zeta. destruct sqrt5. refine (conj (conj _ _) (conj _ (conj _ _))); lra. Qed.

Ltac inner := 
  unfold lagrange, lobatto_point; cbn [seq fold_right Nat.eqb nth];
  let N := fresh in pose proof inner_nodes as N; cbv zeta in N;
  let u := fresh "u" in let v := fresh "v" in
  set (u := (1 - sqrt 5 / 5) / 2) in *; set (v := (1 + sqrt 5 / 5) / 2) in *;
  destruct N as (? & ? & ? & ?); clearbody u v.

Lemma lagrange_sum p x : (p <= 3)%nat -> rsum (S p) (fun i => peval (lagrange p i) x) = 1.
Proof.
  intros Hp. destruct p as [|[|[|[|p]]]]; [| | | |exfalso; lia]; cbn [rsum]; inner; cbn [pmul padd pscal map peval]; field; lra.
Qed.

Lemma lagrange_sum_deriv p x : (p <= 3)%nat -> rsum (S p) (fun i => peval (pderiv (lagrange p i)) x) = 0.
Proof.
  intros Hp. apply (uniqueness_limite (fun y => rsum (S p) (fun i => peval (lagrange p i) y)) x).
  - generalize (S p). intros m. induction m as [|m IH]; cbn [rsum]; [apply derivable_pt_lim_const|].
    apply (derivable_pt_lim_plus (fun y => rsum m (fun i => peval (lagrange p i) y)) (peval (lagrange p m))); [exact IH|apply pderiv_correct].
  - intros e He. exists (mkposreal 1 Rlt_0_1). intros d Hd _. rewrite !lagrange_sum by exact Hp.
    replace ((1 - 1) / d - 0) with 0 by (field; exact Hd). rewrite Rabs_R0. exact He.
Qed.

Lemma lagrange_node p i j : (p <= 3)%nat -> (i <= p)%nat -> (j <= p)%nat ->
  peval (lagrange p i) (lobatto_point (S p) j) = if Nat.eqb j i then 1 else 0.
Proof.
  intros Hp Hi Hj. nodes p i; (destruct j as [|[|[|[|j]]]]; try (exfalso; lia)); inner; cbn [pmul padd pscal map peval]; field; lra.
Qed.

Lemma lagrange_integral p i : (p <= 3)%nat -> (i <= p)%nat -> 0 < integral01 (lagrange p i).
Proof.
  intros Hp Hi. nodes p i; inner; unfold integral01; cbn [pmul padd pscal map integral_from INR].
  all: try lra.
  all: assert (V : v = 1 - u) by lra; subst v; assert (U2 : u ^ 2 = u - 1 / 5) by (replace (u ^ 2) with (u - u * (1 - u)) by ring; lra).
  all: assert (U3 : u ^ 3 = 4 / 5 * u - 1 / 5) by (replace (u ^ 3) with (u * u ^ 2) by ring; rewrite U2; replace (u * (u - 1 / 5)) with (u ^ 2 - u / 5) by field; rewrite U2; field).
  all: assert (U4 : u ^ 4 = 3 / 5 * u - 4 / 25) by (replace (u ^ 4) with (u * u ^ 3) by ring; rewrite U3; replace (u * (4 / 5 * u - 1 / 5)) with (4 / 5 * u ^ 2 - u / 5) by field; rewrite U2; field).
  all: match goal with
  | |- 0 < ?x => first
    [ replace x with (1 / 12); [lra|]; field_simplify_eq; [lra|lra]
    | replace x with (5 / 12); [lra|]; field_simplify_eq; [lra|lra] ] end.
Qed.

Lemma lobatto_weight p i : (p <= 3)%nat -> (i <= p)%nat ->
  integral01 (lagrange p i) = nth i (match p with 0%nat => [1] | 1%nat => [1 / 2; 1 / 2] | 2%nat => [1 / 6; 2 / 3; 1 / 6] | _ => [1 / 12; 5 / 12; 5 / 12; 1 / 12] end) 0.
Proof.
  intros Hp Hi. nodes p i; inner; unfold integral01; cbn [pmul padd pscal map integral_from INR nth].
  all: try lra.
  all: assert (V : v = 1 - u) by lra; subst v; assert (U2 : u ^ 2 = u - 1 / 5) by (replace (u ^ 2) with (u - u * (1 - u)) by ring; lra).
  all: assert (U3 : u ^ 3 = 4 / 5 * u - 1 / 5) by (replace (u ^ 3) with (u * u ^ 2) by ring; rewrite U2; replace (u * (u - 1 / 5)) with (u ^ 2 - u / 5) by field; rewrite U2; field).
  all: assert (U4 : u ^ 4 = 3 / 5 * u - 4 / 25) by (replace (u ^ 4) with (u * u ^ 3) by ring; rewrite U3; replace (u * (4 / 5 * u - 1 / 5)) with (4 / 5 * u ^ 2 - u / 5) by field; rewrite U2; field).
  all: field_simplify_eq; [lra|lra].
Qed.

Lemma lobatto_exact p P : (1 <= p <= 3)%nat -> (length P <= 2 * p)%nat ->
  rsum (S p) (fun i => integral01 (lagrange p i) * peval P (lobatto_point (S p) i)) = integral01 P.
Proof.
  intros Hp HP.
  rewrite (rsum_ext _ _ (fun i => nth i (match p with 0%nat => [1] | 1%nat => [1 / 2; 1 / 2] | 2%nat => [1 / 6; 2 / 3; 1 / 6] | _ => [1 / 12; 5 / 12; 5 / 12; 1 / 12] end) 0 * peval P (lobatto_point (S p) i)))
    by (intros i Hi; rewrite lobatto_weight by lia; reflexivity).
  destruct p as [|[|[|[|p]]]]; [exfalso; lia| | | |exfalso; lia]; cbn [rsum].
  - destruct P as [|c0 [|c1 [|]]]; cbn in HP; try (exfalso; lia); unfold integral01; cbn [nth lobatto_point peval integral_from INR]; lra.
  - destruct P as [|c0 [|c1 [|c2 [|c3 [|]]]]]; cbn in HP; try (exfalso; lia); unfold integral01; cbn [nth lobatto_point peval integral_from INR]; lra.
  - unfold lobatto_point. cbn [nth]. pose proof inner_nodes as N. cbv zeta in N.
    set (u := (1 - sqrt 5 / 5) / 2) in *; set (v := (1 + sqrt 5 / 5) / 2) in *. destruct N as (? & ? & ? & ?); clearbody u v.
    assert (V : v = 1 - u) by lra. subst v.
    assert (U2 : u ^ 2 = u - 1 / 5) by (replace (u ^ 2) with (u - u * (1 - u)) by ring; lra).
    assert (U3 : u ^ 3 = 4 / 5 * u - 1 / 5) by (replace (u ^ 3) with (u * u ^ 2) by ring; rewrite U2; replace (u * (u - 1 / 5)) with (u ^ 2 - u / 5) by field; rewrite U2; field).
    assert (U4 : u ^ 4 = 3 / 5 * u - 4 / 25) by (replace (u ^ 4) with (u * u ^ 3) by ring; rewrite U3; replace (u * (4 / 5 * u - 1 / 5)) with (4 / 5 * u ^ 2 - u / 5) by field; rewrite U2; field).
    assert (U5 : u ^ 5 = 11 / 25 * u - 3 / 25) by (replace (u ^ 5) with (u * u ^ 4) by ring; rewrite U4; replace (u * (3 / 5 * u - 4 / 25)) with (3 / 5 * u ^ 2 - 4 / 25 * u) by field; rewrite U2; field).
    assert (E : forall c0 c1 c2 c3 c4 c5, 1 / 12 * (c0 + 0 * (c1 + 0 * (c2 + 0 * (c3 + 0 * (c4 + 0 * c5))))) + 5 / 12 * (c0 + c1 * u + c2 * u ^ 2 + c3 * u ^ 3 + c4 * u ^ 4 + c5 * u ^ 5)
      + 5 / 12 * (c0 + c1 * (1 - u) + c2 * (1 - 2 * u + u ^ 2) + c3 * (1 - 3 * u + 3 * u ^ 2 - u ^ 3) + c4 * (1 - 4 * u + 6 * u ^ 2 - 4 * u ^ 3 + u ^ 4) + c5 * (1 - 5 * u + 10 * u ^ 2 - 10 * u ^ 3 + 5 * u ^ 4 - u ^ 5))
      + 1 / 12 * (c0 + c1 + c2 + c3 + c4 + c5) = c0 + c1 / 2 + c2 / 3 + c3 / 4 + c4 / 5 + c5 / 6) by (intros; rewrite U2, U3, U4, U5; field).
    destruct P as [|c0 [|c1 [|c2 [|c3 [|c4 [|c5 [|]]]]]]]; cbn in HP; try (exfalso; lia); unfold integral01; cbn [peval integral_from INR].
    + specialize (E 0 0 0 0 0 0). lra.
    + specialize (E c0 0 0 0 0 0). lra.
    + specialize (E c0 c1 0 0 0 0). lra.
    + specialize (E c0 c1 c2 0 0 0). lra.
    + specialize (E c0 c1 c2 c3 0 0). lra.
    + specialize (E c0 c1 c2 c3 c4 0). lra.
    + specialize (E c0 c1 c2 c3 c4 c5). lra.
Qed.
