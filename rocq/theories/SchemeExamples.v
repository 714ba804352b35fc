(** * Concrete systems and meshes: instances of hypotheses and witnesses *)
From Coq Require Import Reals List Arith Bool Lia Lra Permutation FunctionalExtensionality.
From Verif Require Import Scheme SchemeSpec SchemeProofs SchemeUpdate SchemeLimit.
Import ListNotations.
Local Open Scope R_scope.

(** ** Burgers' equation with bounds on the solution *)

Definition in_interval (b : R * R) (u : state unit) : Prop := fst b <= u tt <= snd b.

Definition interval_limit (b : R * R) (u p : state unit) : R * bool :=
  let t := if Rlt_dec 0 (p tt) then (snd b - u tt) / p tt
           else if Rlt_dec (p tt) 0 then (fst b - u tt) / p tt else 1 in
  (Rmin 1 (Rmax 0 t),
   if Rle_dec (fst b) (u tt) then if Rle_dec (u tt) (snd b) then true else false else false).

Definition burgers : system unit := {|
  PC := unit; FC := R; IS := unit; LS := R * R; BD := R * R;
  flux_contribution := fun _ _ u => u tt * u tt / 2;
  flux_divergence := fun a b c _ => - (a * nth 0 c 0 + b * nth 0 c 0);
  have_high_order_flux := false;
  high_order_flux_divergence := fun _ _ _ _ => 0;
  have_source_terms := false;
  nodal_source := fun _ _ _ _ _ => 0;
  shallow_water := false;
  equilibrated_states := fun _ _ => (szero, szero);
  affine_shift := fun _ _ _ _ => szero;
  riemann_compute := fun _ u v _ _ _ => Rmax (Rabs (u tt)) (Rabs (v tt));
  indicator_reset := fun _ _ _ => tt;
  indicator_accumulate := fun _ s _ _ _ => s;
  indicator_alpha := fun _ _ => 0;
  limiter_reset := fun _ _ u _ => (u tt, u tt);
  limiter_accumulate := fun _ l _ u _ _ _ => (Rmin (fst l) (u tt), Rmax (snd l) (u tt));
  limiter_accumulate_sw := fun l _ _ _ _ _ => l;
  limiter_bounds := fun l _ => l;
  limiter_limit := interval_limit;
  combine_bounds := fun a b => (Rmin (fst a) (fst b), Rmax (snd a) (snd b)) |}.

Lemma burgers_guarantee : limiter_guarantee burgers in_interval.
Proof.
  intros [lo hi] u p [H1 H2]. simpl in H1, H2. cbn [limiter_limit burgers interval_limit fst snd].
  set (t := if Rlt_dec 0 (p tt) then _ else _). cbv zeta.
  assert (Ht : forall s, 0 <= s -> s <= 1 -> s <= t -> lo <= u tt + s * p tt <= hi).
  { intros s Hs0 Hs1 Hst. unfold t in Hst. destruct (Rlt_dec 0 (p tt)) as [Hp|Hp].
    - assert (s * p tt <= hi - u tt).
      { replace (hi - u tt) with ((hi - u tt) / p tt * p tt) by (field; lra).
        apply Rmult_le_compat_r; lra. }
      assert (0 <= s * p tt) by (apply Rmult_le_pos; lra). lra.
    - destruct (Rlt_dec (p tt) 0) as [Hn|Hn].
      + assert (s * - p tt <= u tt - lo).
        { replace (u tt - lo) with ((lo - u tt) / p tt * - p tt) by (field; lra).
          apply Rmult_le_compat_r; lra. }
        assert (0 <= s * - p tt) by (apply Rmult_le_pos; lra). lra.
      + replace (p tt) with 0 by lra. lra. }
  assert (Htn : 0 <= t).
  { unfold t. destruct (Rlt_dec 0 (p tt)) as [Hp|Hp].
    - apply Rmult_le_pos; [lra|]. apply Rlt_le, Rinv_0_lt_compat, Hp.
    - destruct (Rlt_dec (p tt) 0) as [Hn|Hn]; [|lra].
      replace ((lo - u tt) / p tt) with ((u tt - lo) / - p tt) by (field; lra).
      apply Rmult_le_pos; [lra|]. apply Rlt_le, Rinv_0_lt_compat. lra. }
  rewrite (Rmax_right 0 t) by exact Htn.
  split; [split; [apply Rmin_glb; lra|apply Rmin_l]|].
  intros s [Hs0 Hs]. unfold in_interval. simpl. apply Ht; [exact Hs0| |].
  - eapply Rle_trans; [exact Hs|apply Rmin_l].
  - eapply Rle_trans; [exact Hs|apply Rmin_r].
Qed.

Lemma interval_convex b : convex_set (in_interval b).
Proof.
  intros u v a [H1 H2] [H3 H4] [H5 H6]. unfold in_interval.
  assert (0 <= a * (u tt - fst b)) by (apply Rmult_le_pos; lra).
  assert (0 <= a * (snd b - u tt)) by (apply Rmult_le_pos; lra).
  assert (0 <= (1 - a) * (v tt - fst b)) by (apply Rmult_le_pos; lra).
  assert (0 <= (1 - a) * (snd b - v tt)) by (apply Rmult_le_pos; lra).
  lra.
Qed.

Lemma burgers_central : central_flux burgers 1 (fun a _ _ => a).
Proof. intros a b c k. unfold dotp. cbn. ring. Qed.

Lemma burgers_symmetric M old : symmetric_riemann burgers M old.
Proof. intros i j _ _ _. simpl. apply Rmax_comm. Qed.

Lemma burgers_nonneg : nonneg_riemann burgers.
Proof. intros pc u v i j n. simpl. eapply Rle_trans; [apply Rabs_pos|apply Rmax_l]. Qed.

Lemma burgers_order : order_independent burgers.
Proof.
  repeat split; intros; simpl.
  f_equal.
  - rewrite <- !Rmin_assoc. f_equal. apply Rmin_comm.
  - rewrite <- !Rmax_assoc. f_equal. apply Rmax_comm.
Qed.

(** ** Three linear elements of size one with periodic boundary, on two ranks
    (the second one has a single row), rows 0 and 1 vectorized *)
Definition ring_c (i j : nat) : cvec :=
  if (j =? (i + 1) mod 3)%nat then [1 / 2] else if (i =? (j + 1) mod 3)%nat then [- (1 / 2)] else [0].

Definition ring3 : mesh := {|
  n_rows := 3;
  owner := fun i => if (i =? 2)%nat then 1%nat else 0%nat;
  index := fun i => if (i =? 2)%nat then 0%nat else i;
  lanes := fun i => if (i =? 2)%nat then [2%nat] else [0%nat; 1%nat];
  columns := fun i => match i with
                      | 0%nat => [0; 1; 2]%nat
                      | 1%nat => [1; 0; 2]%nat
                      | _ => [2; 0; 1]%nat
                      end;
  mass := fun _ => 1; mass_inv := fun _ => / 1;
  mass_ij := fun i j => if (i =? j)%nat then 2 / 3 else 1 / 6;
  mass_ij_inv := fun _ _ => 0;
  c_ij := ring_c;
  incidence := fun _ _ => 0;
  coupling_pairs := [];
  measure_of_omega := 3;
  discontinuous := false |}.

(** The same mesh on one rank in reversed numbering, without vectorization. *)
Definition ring3' : mesh := {|
  n_rows := 3;
  owner := fun _ => 0%nat;
  index := fun i => (2 - i)%nat;
  lanes := fun i => [i];
  columns := fun i => match i with
                      | 0%nat => [0; 2; 1]%nat
                      | 1%nat => [1; 2; 0]%nat
                      | _ => [2; 1; 0]%nat
                      end;
  mass := fun _ => 1; mass_inv := fun _ => / 1;
  mass_ij := fun i j => if (i =? j)%nat then 2 / 3 else 1 / 6;
  mass_ij_inv := fun _ _ => 0;
  c_ij := ring_c;
  incidence := fun _ _ => 0;
  coupling_pairs := [];
  measure_of_omega := 3;
  discontinuous := false |}.

Ltac rows3 i Hi := destruct i as [|[|[|i]]]; [| | |cbn in Hi; lia].

Lemma ring3_pattern : symmetric_pattern ring3.
Proof.
  intros i Hi. rows3 i Hi; cbn [columns ring3].
  - exists [1; 2]%nat. split; [reflexivity|]. split.
    + repeat constructor; simpl; intuition discriminate.
    + intros j [<-|[<-|[]]]; cbn; split; try lia; tauto.
  - exists [0; 2]%nat. split; [reflexivity|]. split.
    + repeat constructor; simpl; intuition discriminate.
    + intros j [<-|[<-|[]]]; cbn; split; try lia; tauto.
  - exists [0; 1]%nat. split; [reflexivity|]. split.
    + repeat constructor; simpl; intuition discriminate.
    + intros j [<-|[<-|[]]]; cbn; split; try lia; tauto.
Qed.

Lemma ring3'_pattern : symmetric_pattern ring3'.
Proof.
  intros i Hi. rows3 i Hi; cbn [columns ring3'].
  - exists [2; 1]%nat. split; [reflexivity|]. split.
    + repeat constructor; simpl; intuition discriminate.
    + intros j [<-|[<-|[]]]; cbn; split; try lia; tauto.
  - exists [2; 0]%nat. split; [reflexivity|]. split.
    + repeat constructor; simpl; intuition discriminate.
    + intros j [<-|[<-|[]]]; cbn; split; try lia; tauto.
  - exists [1; 0]%nat. split; [reflexivity|]. split.
    + repeat constructor; simpl; intuition discriminate.
    + intros j [<-|[<-|[]]]; cbn; split; try lia; tauto.
Qed.

Lemma ring3_masses : positive_masses ring3.
Proof. intros i Hi. cbn. split; [lra|reflexivity]. Qed.

Lemma ring3_numbering : valid_numbering ring3.
Proof.
  split.
  - intros i Hi. rows3 i Hi; cbn; tauto.
  - intros i j Hi Hj. rows3 i Hi; rows3 j Hj; cbn; congruence.
Qed.

Lemma ring3'_numbering : valid_numbering ring3'.
Proof.
  split.
  - intros i Hi. cbn; tauto.
  - intros i j Hi Hj. rows3 i Hi; rows3 j Hj; cbn; congruence.
Qed.

Lemma ring_skew i j : (i < 3)%nat -> (j < 3)%nat -> ring_c j i = neg (ring_c i j).
Proof.
  intros Hi Hj. rows3 i Hi; rows3 j Hj; cbn; f_equal; lra.
Qed.

Lemma ring3_pairs : pairs_listed ring3.
Proof.
  intros i j [Hi _] Hj Hne. left. unfold skew_at. cbn [c_ij ring3].
  assert (j < 3)%nat by (apply (uniform_columns ring3 ring3_pattern i j Hi Hj)).
  apply ring_skew; assumption.
Qed.

Lemma ring3'_pairs : pairs_listed ring3'.
Proof.
  intros i j [Hi _] Hj Hne. left. unfold skew_at. cbn [c_ij ring3'].
  assert (j < 3)%nat by (apply (uniform_columns ring3' ring3'_pattern i j Hi Hj)).
  apply ring_skew; assumption.
Qed.

Lemma ring3_sum i : (i < n_rows ring3)%nat -> zero_row_sum ring3 i.
Proof.
  intros Hi x. rows3 i Hi; cbn [columns ring3 lsum c_ij]; cbn;
    destruct x as [|[|x]]; cbn; lra.
Qed.

Lemma ring3_symmetric : symmetric_matrices ring3.
Proof.
  intros i j Hi Hj. cbn. rewrite (Nat.eqb_sym j i). auto.
Qed.

Lemma ring3_skew_divergence k : skew_divergence burgers ring3 (flux_divergence unit burgers) k.
Proof.
  intros i j a b Hi Hj Hne. cbn [c_ij ring3 flux_divergence burgers].
  assert (j < 3)%nat by (apply (uniform_columns ring3 ring3_pattern i j Hi Hj)).
  rewrite (ring_skew i j Hi H).
  replace (nth 0 (neg (ring_c i j)) 0) with (- nth 0 (ring_c i j) 0).
  - ring.
  - unfold neg. destruct (ring_c i j); cbn; lra.
Qed.

Lemma ring3_same : same_problem ring3 ring3'.
Proof.
  repeat split. intros i Hi. rows3 i Hi; cbn [columns ring3 ring3'].
  - apply perm_skip, perm_swap.
  - apply perm_skip, perm_swap.
  - apply perm_skip, perm_swap.
Qed.

(** A state that is not constant. *)
Definition ring_state : (nat -> state unit) * unit := (fun i _ => INR i, tt).

(** ** An interval with one linear element: rows with c_ii <> 0 *)

(** Linear advection, or the ordinary differential equation u' = u if
    [src]; nothing is limited. *)
Definition advection (src : bool) : system unit := {|
  PC := unit; FC := R; IS := unit; LS := unit; BD := unit;
  flux_contribution := fun _ _ u => u tt;
  flux_divergence := fun a b c _ => if src then 0 else - (a * nth 0 c 0 + b * nth 0 c 0);
  have_high_order_flux := false;
  high_order_flux_divergence := fun _ _ _ _ => 0;
  have_source_terms := src;
  nodal_source := fun _ _ u _ => u;
  shallow_water := false;
  equilibrated_states := fun _ _ => (szero, szero);
  affine_shift := fun _ _ _ _ => szero;
  riemann_compute := fun _ u v _ _ _ => 1;
  indicator_reset := fun _ _ _ => tt;
  indicator_accumulate := fun _ s _ _ _ => s;
  indicator_alpha := fun _ _ => 0;
  limiter_reset := fun _ _ _ _ => tt;
  limiter_accumulate := fun _ l _ _ _ _ _ => l;
  limiter_accumulate_sw := fun l _ _ _ _ _ => l;
  limiter_bounds := fun l _ => l;
  limiter_limit := fun _ _ _ => (1, true);
  combine_bounds := fun a _ => a |}.

Definition segment : mesh := {|
  n_rows := 2;
  owner := fun _ => 0%nat; index := fun i => i; lanes := fun i => [i];
  columns := fun i => match i with 0%nat => [0; 1]%nat | _ => [1; 0]%nat end;
  mass := fun _ => 1 / 2; mass_inv := fun _ => / (1 / 2);
  mass_ij := fun i j => if (i =? j)%nat then 1 / 3 else 1 / 6;
  mass_ij_inv := fun _ _ => 0;
  c_ij := fun i j => match j with 0%nat => [- (1 / 2)] | _ => [1 / 2] end;
  incidence := fun _ _ => 0;
  coupling_pairs := [(0, 1); (1, 0)]%nat;
  measure_of_omega := 1;
  discontinuous := false |}.

Ltac rows2 i Hi := destruct i as [|[|i]]; [| |cbn in Hi; lia].

Lemma segment_pattern : symmetric_pattern segment.
Proof.
  intros i Hi. rows2 i Hi; cbn [columns segment].
  - exists [1]%nat. split; [reflexivity|]. split.
    + repeat constructor; simpl; intuition discriminate.
    + intros j [<-|[]]; cbn; split; try lia; tauto.
  - exists [0]%nat. split; [reflexivity|]. split.
    + repeat constructor; simpl; intuition discriminate.
    + intros j [<-|[]]; cbn; split; try lia; tauto.
Qed.

Lemma segment_masses : positive_masses segment.
Proof. intros i Hi. cbn. split; [lra|reflexivity]. Qed.

Lemma segment_symmetric : symmetric_matrices segment.
Proof. intros i j Hi Hj. cbn. rewrite (Nat.eqb_sym j i). auto. Qed.

Lemma segment_sum i : zero_row_sum segment i.
Proof.
  intros x. unfold zero_row_sum. destruct i; cbn; destruct x as [|[|x]]; cbn; lra.
Qed.

Definition all_zero : (nat -> state unit) * unit := (fun _ _ => 0, tt).
Definition all_one : (nat -> state unit) * unit := (fun _ _ => 1, tt).

Lemma segment_pass src l V old stages alpha d tau :
  high_order_update (advection src) segment old stages alpha d tau l V 0 tt =
  V 0%nat tt + tau * / (1 / 2) *
  (symmetrized l 0 1 * corr (advection src) segment old stages alpha d tau 0 1 tt).
Proof.
  rewrite high_order_update_corr; [|exact segment_pattern|cbn; lia|reflexivity].
  change (neighbours segment 0) with [1%nat]. cbn [lsum]. rewrite Rplus_0_r. reflexivity.
Qed.

(** The result at row 0 for the zero state and a stage with value one and
    weight -1. *)
Lemma segment_value src tau alpha d :
  fst (update (advection src) segment 1 all_zero [(all_one, -1)] alpha d tau [] 1
         (fun _ _ => 0) (fun _ _ => 0) (fun _ _ => 0)) 0%nat tt =
  if src then - (tau / 3) else 2 * tau.
Proof.
  unfold update. cbn [fst passes Nat.eqb andb]. rewrite segment_pass.
  rewrite low_order_form by reflexivity.
  unfold symmetrized. cbn [constrained columns segment length Nat.eqb].
  unfold limit_first. cbn [limiter_limit advection fst].
  rewrite Rmin_left by lra.
  unfold corr. rewrite pij_step4_form, !high_order_rhs_form.
  unfold flux_H, src_H, high_order_flux, low_order_flux, flux, jump, source, weight.
  destruct src; cbn; unfold sminus, szero; field.
Qed.

(** ** Three rows of a discontinuous ansatz in a chain *)
Definition chain_system : system unit := {|
  PC := unit; FC := unit; IS := unit; LS := R; BD := R;
  flux_contribution := fun _ _ _ => tt;
  flux_divergence := fun _ _ _ => szero;
  have_high_order_flux := false;
  high_order_flux_divergence := fun _ _ _ => szero;
  have_source_terms := false;
  nodal_source := fun _ _ _ _ => szero;
  shallow_water := false;
  equilibrated_states := fun _ _ => (szero, szero);
  affine_shift := fun _ _ _ _ => szero;
  riemann_compute := fun _ _ _ _ _ _ => 1;
  indicator_reset := fun _ _ _ => tt;
  indicator_accumulate := fun _ s _ _ _ => s;
  indicator_alpha := fun _ _ => 0;
  limiter_reset := fun _ _ u _ => u tt;
  limiter_accumulate := fun _ l _ _ _ _ _ => l;
  limiter_accumulate_sw := fun l _ _ _ _ _ => l;
  limiter_bounds := fun l _ => l;
  limiter_limit := fun b _ _ => (if Rle_dec 2 b then 1 else 0, true);
  combine_bounds := Rmax |}.

Definition chain : mesh := {|
  n_rows := 3;
  owner := fun _ => 0%nat; index := fun i => i; lanes := fun i => [i];
  columns := fun i => match i with
                      | 0%nat => [0; 1]%nat
                      | 1%nat => [1; 0; 2]%nat
                      | _ => [2; 1]%nat
                      end;
  mass := fun _ => 1; mass_inv := fun _ => / 1;
  mass_ij := fun i j => if (i =? j)%nat then 1 else 0;
  mass_ij_inv := fun i j => if (i =? j)%nat then 1 else 0;
  c_ij := fun i j => if (i <? j)%nat then [1] else if (j <? i)%nat then [- (1)] else [0];
  incidence := fun _ _ => 0;
  coupling_pairs := [];
  measure_of_omega := 1;
  discontinuous := true |}.

Lemma chain_pattern : symmetric_pattern chain.
Proof.
  intros i Hi. rows3 i Hi; cbn [columns chain].
  - exists [1]%nat. split; [reflexivity|]. split.
    + repeat constructor; simpl; intuition discriminate.
    + intros j [<-|[]]; cbn; split; try lia; tauto.
  - exists [0; 2]%nat. split; [reflexivity|]. split.
    + repeat constructor; simpl; intuition discriminate.
    + intros j [<-|[<-|[]]]; cbn; split; try lia; tauto.
  - exists [1]%nat. split; [reflexivity|]. split.
    + repeat constructor; simpl; intuition discriminate.
    + intros j [<-|[]]; cbn; split; try lia; tauto.
Qed.

Lemma chain_masses : positive_masses chain.
Proof. intros i Hi. cbn. split; [lra|reflexivity]. Qed.

Lemma chain_numbering : valid_numbering chain.
Proof. split; [intros i Hi; cbn; tauto|]. intros i j Hi Hj. cbn. auto. Qed.

Lemma chain_pairs : pairs_listed chain.
Proof.
  intros i j [Hi _] Hj Hne. left. unfold skew_at.
  assert (j < 3)%nat by (apply (uniform_columns chain chain_pattern i j Hi Hj)).
  rows3 i Hi; rows3 j H; try congruence; cbn; f_equal; lra.
Qed.

Definition chain_state : (nat -> state unit) * unit := (fun i _ => INR i, tt).

Lemma chain_value order :
  fst (hyperbolic_update chain_system chain 1 order 1 (fun _ => 0) (fun _ _ => 0) (fun _ _ => 0)
         (fun _ _ => 0) (fun _ _ => 0) chain_state [] (1 / 4)) 0%nat tt =
  1 / 4 - 1 / 4 *
   Rmin (if Rle_dec 2 (limiter_bounds_i chain_system chain 1 chain_state
            (dij_matrix chain_system chain 1 chain_state (fun _ _ => 0)) (1 / 4) order 0) then 1 else 0)
        (if Rle_dec 2 (limiter_bounds_i chain_system chain 1 chain_state
            (dij_matrix chain_system chain 1 chain_state (fun _ _ => 0)) (1 / 4) order 1) then 1 else 0).
Proof.
  assert (Hd : dij_matrix chain_system chain 1 chain_state (fun _ _ => 0) 0 1 = 1).
  { rewrite dij_value.
    - unfold wave_viscosity, cnorm. cbn [c_ij chain Nat.ltb Nat.leb riemann_compute chain_system fold_right].
      replace (1 * 1 + 0) with 1 by ring. replace (-(1) * -(1) + 0) with 1 by ring.
      rewrite sqrt_1. rewrite Rmax_left; lra.
    - exact chain_pattern.
    - exact chain_numbering.
    - exact chain_pairs.
    - intros pc u v i j n. reflexivity.
    - cbn; lia.
    - cbn; tauto. }
  unfold hyperbolic_update, update. cbn [fst passes Nat.eqb andb].
  rewrite high_order_update_corr; [|exact chain_pattern|cbn; lia|reflexivity].
  change (neighbours chain 0) with [1%nat]. cbn [lsum].
  rewrite low_order_form by reflexivity.
  unfold symmetrized. cbn [constrained columns chain length Nat.eqb].
  unfold limit_first. cbn [limiter_limit chain_system fst].
  set (l01 := if Rle_dec 2 _ then 1 else 0). set (l10 := if Rle_dec 2 _ then 1 else 0).
  unfold corr. rewrite pij_step4_form.
  change (columns chain 0) with [0%nat; 1%nat]. cbn [lsum].
  unfold dijH, compute_alpha, chain_state. cbn [discontinuous chain mass_ij_inv Nat.eqb mass mass_inv].
  fold chain_state. rewrite Hd.
  unfold flux_H, src_H, high_order_flux, low_order_flux, flux, jump, source, weight.
  cbn [have_high_order_flux have_source_terms shallow_water chain_system map snd fold_left lsum
       flux_divergence incidence chain].
  unfold szero, sminus, chain_state. cbn [fst INR].
  change (constrained chain 0) with false. change (constrained chain 1) with false.
  cbn [indicator_alpha chain_system].
  rewrite Rmax_left by lra. field.
Qed.

Lemma chain_b4 i : bounds_step4 chain_system chain 1 chain_state
  (dij_matrix chain_system chain 1 chain_state (fun _ _ => 0)) (1 / 4) i = INR i.
Proof.
  unfold bounds_step4. cbn [shallow_water chain_system limiter_bounds limiter_accumulate].
  generalize (columns chain i). intros l. unfold flux. cbn [limiter_reset chain_system].
  change (fst chain_state i tt) with (INR i). generalize (INR i). induction l; intros r; [reflexivity|].
  simpl. apply IHl.
Qed.

Lemma chain_bounds_eq order : limiter_bounds_i chain_system chain 1 chain_state
  (dij_matrix chain_system chain 1 chain_state (fun _ _ => 0)) (1 / 4) order =
  extend_bounds chain_system chain order INR.
Proof.
  unfold limiter_bounds_i. cbn [discontinuous chain]. f_equal.
  apply functional_extensionality. apply chain_b4.
Qed.

Lemma chain_bounds_up :
  extend_bounds chain_system chain [0; 1; 2]%nat INR 0%nat = 1.
Proof.
  unfold extend_bounds, constrained, neighbours, upd. cbn.
  rewrite Rmax_right; lra.
Qed.
Lemma chain_bounds_down :
  extend_bounds chain_system chain [2; 1; 0]%nat INR 0%nat = 2 /\
  extend_bounds chain_system chain [2; 1; 0]%nat INR 1%nat = 2.
Proof.
  unfold extend_bounds, constrained, neighbours, upd. cbn.
  unfold Rmax. split; repeat (destruct (Rle_dec _ _); try lra).
Qed.
