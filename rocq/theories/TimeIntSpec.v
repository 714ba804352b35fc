(** * Independent specifications for time integration: Runge-Kutta methods
    given by Butcher tableaux, order conditions, convexity. *)
From Coq Require Import Reals List.
From Verif Require Import TimeInt.
Import ListNotations.
Local Open Scope R_scope.

Section Vectors.
Context {I : Type}.
Definition vec := I -> R.
Definition vzero : vec := fun _ => 0.
Definition vadd (u v : vec) : vec := fun i => u i + v i.
Definition vscal (a : R) (u : vec) : vec := fun i => a * u i.

(** [sum_j w_j k_j] *)
Fixpoint comb (ws : list R) (ks : list vec) : vec :=
  match ws, ks with
  | w :: ws', k :: ks' => vadd (vscal w k) (comb ws' ks')
  | _, _ => vzero
  end.

(** A set of vectors is convex. *)
Definition convex (K : vec -> Prop) : Prop :=
  forall u v a, K u -> K v -> 0 <= a <= 1 -> K (vadd (vscal a u) (vscal (1 - a) v)).
End Vectors.
Arguments vec : clear implicits.

(** An explicit Butcher tableau: the rows [(c_k, [a_k1; a_k2; ...])] and the
    weights [b]. *)
Record tableau := { tab_rows : list (R * list R); tab_b : list R }.

Section RungeKutta.
Context {I : Type}.
(** The right hand side of u' = L(t, u). *)
Variable L : R -> vec I -> vec I.

(** The slopes [L (t + c_k h) (u + h sum_j a_kj k_j)] of the stages, in order. *)
Fixpoint rk_slopes (t h : R) (u : vec I) (rows : list (R * list R)) (ks : list (vec I))
  : list (vec I) :=
  match rows with
  | [] => ks
  | (c, a) :: rows' =>
      rk_slopes t h u rows' (ks ++ [L (t + c * h) (vadd u (vscal h (comb a ks)))])
  end.

Definition rk_step (tab : tableau) (t h : R) (u : vec I) : vec I :=
  vadd u (vscal h (comb (tab_b tab) (rk_slopes t h u (tab_rows tab) []))).
End RungeKutta.

(** Additive Runge-Kutta methods for u' = F(t, u) + D(t, u): the tableaux of F
    and D have common abscissae. *)
Section AdditiveRungeKutta.
Context {I : Type}.
Variables F D : R -> vec I -> vec I.

Fixpoint ark_slopes (t h : R) (u : vec I) (rows : list (R * list R * list R))
  (ks : list (vec I * vec I)) : list (vec I * vec I) :=
  match rows with
  | [] => ks
  | (c, a, d) :: rows' =>
      let y := vadd u (vscal h (vadd (comb a (map fst ks)) (comb d (map snd ks)))) in
      ark_slopes t h u rows' (ks ++ [(F (t + c * h) y, D (t + c * h) y)])
  end.

Definition ark_step (rows : list (R * list R * list R)) (b bd : list R) (t h : R) (u : vec I)
  : vec I :=
  let ks := ark_slopes t h u rows [] in
  vadd u (vscal h (vadd (comb b (map fst ks)) (comb bd (map snd ks)))).
End AdditiveRungeKutta.

(** [s] equal forward Euler substeps as a tableau: row k is [1/s, ..., 1/s] (k entries). *)
Definition substeps (s k : nat) : list R := repeat (/ INR s) k.

(** The additive method with tableau [tab] for F and with as many forward
    Euler substeps for D as [tab] has stages. *)
Fixpoint with_substeps (s k : nat) (rows : list (R * list R)) : list (R * list R * list R) :=
  match rows with
  | [] => []
  | (c, a) :: rows' => (c, a, substeps s k) :: with_substeps s (S k) rows'
  end.
Definition rk_substep {I : Type} (F D : R -> vec I -> vec I) (tab : tableau) (t h : R) (u : vec I)
  : vec I :=
  let s := length (tab_rows tab) in
  ark_step F D (with_substeps s 0 (tab_rows tab)) (tab_b tab) (substeps s s) t h u.

(** Documented tableaux, source/time_integrator.h:48-128. *)
Definition doc_ssprk_22 : tableau :=
  {| tab_rows := [(0, []); (1/2, [1/2])]; tab_b := [1; 0] |}.
Definition doc_ssprk_33 : tableau :=
  {| tab_rows := [(0, []); (1, [1]); (1/2, [1/4; 1/4])]; tab_b := [1/6; 1/6; 2/3] |}.
Definition doc_erk_11 : tableau := {| tab_rows := [(0, [])]; tab_b := [1] |}.
Definition doc_erk_22 : tableau :=
  {| tab_rows := [(0, []); (1/2, [1/2])]; tab_b := [0; 1] |}.
Definition doc_erk_33 : tableau :=
  {| tab_rows := [(0, []); (1/3, [1/3]); (2/3, [0; 2/3])]; tab_b := [1/4; 0; 3/4] |}.
Definition doc_erk_43 : tableau :=
  {| tab_rows := [(0, []); (1/4, [1/4]); (1/2, [0; 1/2]); (3/4, [0; 1/4; 1/2])];
     tab_b := [0; 2/3; -1/3; 2/3] |}.
(** Heun's method (Shu 1988, Eq. 2.15, the reference given at
    source/time_integrator.template.h:282). *)
Definition heun : tableau :=
  {| tab_rows := [(0, []); (1, [1])]; tab_b := [1/2; 1/2] |}.

(** The constants of source/time_integrator.template.h:453-468 (b_5 from the
    comment in line 468). *)
Definition doc_erk_54 : tableau :=
  {| tab_rows :=
       [(0, []);
        (1/5, [2 / 10]);
        (2/5, [26075582269554909 / 100000000000000000; 13924417730445096 / 100000000000000000]);
        (3/5, [- (25856517872570289 / 100000000000000000); 91136274166280729 / 100000000000000000;
               - (5279756293710430 / 100000000000000000)]);
        (4/5, [21623276431503774 / 100000000000000000; 51534223099602405 / 100000000000000000;
               - (81662794199265554 / 100000000000000000); 88505294668159373 / 100000000000000000])];
     tab_b := [- (10511678454691901 / 100000000000000000); 87880047152100838 / 100000000000000000;
               - (58903404061484477 / 100000000000000000); 46213380485434047 / 100000000000000000;
               35321654878641495 / 100000000000000000] |}.

(** Two tableaux have the same abscissae and coefficients that differ by at
    most [eps]. *)
Definition close_tableau (eps : R) (p q : tableau) : Prop :=
  Forall2 (fun r r' => fst r = fst r' /\ Forall2 (fun x y => Rabs (x - y) <= eps) (snd r) (snd r'))
    (tab_rows p) (tab_rows q) /\
  Forall2 (fun x y => Rabs (x - y) <= eps) (tab_b p) (tab_b q).

(** Order conditions (Hairer, Norsett, Wanner): rooted trees with up to four
    vertices.  [residual tab k] lists the residuals of the conditions of order k. *)
Fixpoint dot (u v : list R) : R :=
  match u, v with x :: u', y :: v' => x * y + dot u' v' | _, _ => 0 end.
Definition tab_c (tab : tableau) : list R := map fst (tab_rows tab).
Definition tab_A (tab : tableau) (v : list R) : list R :=
  map (fun r => dot (snd r) v) (tab_rows tab).
Definition pw (f : R -> R -> R) (u v : list R) : list R :=
  map (fun p => f (fst p) (snd p)) (combine u v).
Definition ones (n : nat) : list R := repeat 1 n.
Definition residual (tab : tableau) (order : nat) : list R :=
  let b := tab_b tab in let c := tab_c tab in let A := tab_A tab in
  match order with
  | 1%nat => [dot b (ones (length b)) - 1]
  | 2%nat => [dot b c - 1/2]
  | 3%nat => [dot b (pw Rmult c c) - 1/3; dot b (A c) - 1/6]
  | 4%nat => [dot b (pw Rmult c (pw Rmult c c)) - 1/4; dot b (pw Rmult c (A c)) - 1/8;
              dot b (A (pw Rmult c c)) - 1/12; dot b (A (A c)) - 1/24]
  | _ => []
  end.
(** All residuals up to the given order are at most [eps] in magnitude, and
    the row sums agree with the abscissae. *)
Definition order_up_to (tab : tableau) (p : nat) (eps : R) : Prop :=
  (forall q, (1 <= q <= p)%nat -> Forall (fun r => Rabs r <= eps) (residual tab q)) /\
  Forall (fun r => dot (snd r) (ones (length (snd r))) = fst r) (tab_rows tab).

(** The state vectors of the integrator theorems: a vector together with the
    time it has been prepared for (precomputed values, boundary values). *)
Definition tvec (I : Type) := (vec I * R)%type.

(** Preparation that only records the time (no strongly imposed boundary
    values). *)
Definition tprep {I : Type} (t : R) (v : tvec I) : tvec I := (fst v, t).
Definition tsadd {I : Type} (dst : tvec I) (s b : R) (src : tvec I) : tvec I :=
  (vadd (vscal s (fst dst)) (vscal b (fst src)), snd dst).

(** The update without limiting: fluxes and sources [F] of all stages with the
    stage weights and the remaining weight on the old state; high-order
    viscosity [D] of the old state.  source/hyperbolic_module.template.h:615-616,
    769-846. Theorem [C61_unlimited_update] of SchemeThms.v derives this form
    from the model of the full step. *)
Definition unlimited {I : Type} (F D : R -> R -> vec I -> vec I)
  (old : tvec I) (stages : list (tvec I * R)) (tau : R) : tvec I :=
  let weight := 1 - fold_right Rplus 0 (map snd stages) in
  (vadd (fst old)
     (vscal tau
        (vadd (D tau (snd old) (fst old))
        (vadd (vscal weight (F tau (snd old) (fst old)))
              (comb (map snd stages) (map (fun s => F tau (snd (fst s)) (fst (fst s))) stages))))),
   snd old + tau).

(** One step of the implicit midpoint rule (the Crank-Nicolson step of the
    Strang schemes) of size h for y' = L y: z = u + h L((u + z)/2). *)
Definition is_midpoint_step {I : Type} (L : vec I -> vec I) (h : R) (u z : vec I) : Prop :=
  z = vadd u (vscal h (L (vscal (1/2) (vadd u z)))).

(** y = u + h L y. *)
Definition is_backward_euler_step {I : Type} (L : vec I -> vec I) (h : R) (u y : vec I) : Prop :=
  y = vadd u (vscal h (L y)).

(** The state [2 y - u] formed from a backward Euler step [B tau t u]. *)
Definition crank_nicolson {I : Type} (B : R -> R -> vec I -> vec I) (tau t : R) (u : vec I) : vec I :=
  vadd (vscal 2 (B tau t u)) (vscal (-1) u).

(** Hyperbolic update without limiting, with an arbitrary violation flag. *)
Definition rk_hyp {I : Type} (F D : R -> R -> vec I -> vec I)
  (flag : tvec I -> list (tvec I * R) -> R -> bool)
  (o : tvec I) (st : list (tvec I * R)) (tau : R) : tvec I * bool :=
  (unlimited F D o st tau, flag o st tau).

(** Parabolic update given by a map [B tau t u], with an arbitrary violation flag. *)
Definition be_para {I : Type} (B : R -> R -> vec I -> vec I)
  (pflag : tvec I -> R -> R -> bool) (o : tvec I) (t tau : R) : option (tvec I * bool) :=
  Some ((B tau t (fst o), t + tau), pflag o t tau).

(** Preparation that changes the vector (boundary values). *)
Definition pprep {I : Type} (P : R -> vec I -> vec I) (t : R) (v : tvec I) : tvec I :=
  (P t (fst v), t).

(** Comparison of machine states. *)
Section States.
Context {SV : Type}.
Definition same_config (s s' : mstate SV) : Prop :=
  st_cfl _ s' = st_cfl _ s /\ st_hyp _ s' = st_hyp _ s /\ st_para _ s' = st_para _ s.
Definition total_restarts (s : mstate SV) := (st_restarts _ s + st_para_restarts _ s)%nat.
Definition total_warnings (s : mstate SV) := (st_warnings _ s + st_para_warnings _ s)%nat.
(** No restart and no warning has been recorded between s and s'. *)
Definition counters_eq (s s' : mstate SV) : Prop :=
  st_restarts _ s' = st_restarts _ s /\ st_warnings _ s' = st_warnings _ s /\
  st_para_restarts _ s' = st_para_restarts _ s /\
  st_para_warnings _ s' = st_para_warnings _ s.
(** s with the given violation strategies and CFL number. *)
Definition configured (hs ps : strategy) (cfl : R) (s : mstate SV) : mstate SV :=
  {| st_vector := st_vector _ s; st_cfl := cfl; st_hyp := hs; st_para := ps;
     st_restarts := st_restarts _ s; st_warnings := st_warnings _ s;
     st_para_restarts := st_para_restarts _ s; st_para_warnings := st_para_warnings _ s |}.
End States.

(** The schemes without parabolic updates. *)
Definition explicit_scheme (sch : scheme) : bool :=
  match sch with
  | ssprk_22 | ssprk_33 | erk_11 | erk_22 | erk_33 | erk_43 | erk_54 => true
  | strang_ssprk_33_cn | strang_erk_33_cn | strang_erk_43_cn | imex_11 | imex_22 | imex_33 => false
  end.
