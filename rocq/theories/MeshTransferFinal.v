(** * Mesh adaptation: the properties *)
From Coq Require Import Reals List Arith Bool Lia Lra.
From Verif Require Import RVec BalanceProofs SchemeUpdate.
From Verif Require Import EulerSystem EulerSchemeSpec EulerSchemeProofs EulerMinEntropyFinal.
From Verif Require Import SchemeSpec.
From Verif Require Import RVec.
From Verif Require Import Discretization DiscretizationSpec DiscretizationProofs DiscretizationTensor MeshTransfer MeshTransferSpec MeshTransferProofs.
Import ListNotations.
Local Open Scope R_scope.

Lemma C150_same_proof : forall a dim restrict ms t x v,
  (1 <= dim)%nat -> (forall m, In m ms -> only_refines m) ->
  value_at a dim (adaptations a dim restrict ms t) x v = value_at a dim t x v.
Proof.
  intros a dim restrict ms t x v Hd. revert t. induction ms as [|m ms IH]; intros t H; [reflexivity|].
  unfold adaptations in *. cbn [fold_left]. rewrite IH by (intros; apply H; right; assumption). apply tree_function; [apply H; left; reflexivity|exact Hd].
Qed.

Lemma C150_total_proof : forall a dim restrict ms t h v,
  (1 <= dim)%nat -> (forall m, In m ms -> only_refines m) \/ projects a dim restrict ->
  total_of a dim h (adaptations a dim restrict ms t) v = total_of a dim h t v.
Proof.
  intros a dim restrict ms t h v Hd. revert t. induction ms as [|m ms IH]; intros t H; [reflexivity|].
  unfold adaptations in *. cbn [fold_left]. rewrite IH.
  - destruct H as [H|H]; [apply tree_total_refine; [apply H; left; reflexivity|exact Hd]|apply tree_total_project; exact H].
  - destruct H as [H|H]; [left; intros; apply H; right; assumption|right; exact H].
Qed.

Lemma C150_global_proof : forall a dim restrict n t,
  (1 <= dim)%nat ->
  n_active dim (adaptations a dim restrict (repeat (mark None) n) t) = (2 ^ (n * dim) * n_active dim t)%nat.
Proof.
  intros a dim restrict n t Hd. revert t. unfold adaptations. induction n as [|n IH]; intros t; cbn [repeat fold_left]; [cbn; lia|].
  rewrite IH, tree_count by exact Hd. cbn [Nat.mul]. rewrite (Nat.add_comm dim), Nat.pow_add_r. lia.
Qed.

Lemma C150_states_proof : forall a dim ms t X,
  (1 <= dim)%nat -> convex_set X ->
  a = cg_q1 \/ a = dg_q0 /\ (forall m, In m ms -> only_refines m) \/ a = dg_q1 /\ (forall m, In m ms -> only_refines m) ->
  all_states a dim X t -> all_states a dim X (adaptations a dim (inject a dim) ms t).
Proof.
  intros a dim ms t X Hd HX Ha. revert t. unfold adaptations. induction ms as [|m ms IH]; intros t Ht; [exact Ht|]. cbn [fold_left]. apply IH.
  - destruct Ha as [Ha|[[Ha H]|[Ha H]]]; [left; exact Ha|right; left|right; right]; (split; [exact Ha|intros; apply H; right; assumption]).
  - apply tree_states; try assumption.
    + destruct Ha as [-> | [[-> _] | [-> _]]]; cbn; lia.
    + destruct Ha as [-> | [[_ H] | [_ H]]]; [right; apply inject_keeps; [exact HX|reflexivity]|left; apply H; left; reflexivity|left; apply H; left; reflexivity].
Qed.

(** Gas on linear elements. *)
Lemma C150_gas_proof : forall g dim ms t s0,
  (1 <= dim)%nat -> 1 < gamma g -> 0 <= s0 ->
  all_states cg_q1 dim (fun u => positive_gas dim u /\ s0 * powr (u 0%nat) (gamma g) <= internal_energy dim u) t ->
  all_states cg_q1 dim (fun u => positive_gas dim u /\ s0 * powr (u 0%nat) (gamma g) <= internal_energy dim u)
    (adaptations cg_q1 dim (inject cg_q1 dim) ms t).
Proof.
  intros g dim ms t s0 Hd Hg H0. apply C150_states_proof; [exact Hd| |left; reflexivity]. exact (at_least_convex g dim s0 Hg H0).
Qed.

(** ** Nodal values *)
Lemma nodal a dim U i x v : (i < n_values a dim)%nat -> (forall k, (k < dim)%nat -> x k = node a i k) -> cell_value a dim U x v = U i v.
Proof.
  intros Hi Hx. unfold cell_value. rewrite (rsum_ext _ _ (fun j => if Nat.eqb j i then U i v else 0)).
  - apply rsum_single. exact Hi.
  - intros j Hj. assert (E : shape_at a dim j x = if Nat.eqb j i then 1 else 0).
    { unfold shape_at. set (p := degree a).
      rewrite (rprod_ext dim _ (fun k => if Nat.eqb (digit (S p) i k) (digit (S p) j k) then 1 else 0)).
      - destruct (Nat.eqb_spec j i) as [->|N].
        + rewrite (rprod_ext dim _ (fun _ => 1)); [apply rprod_1|]. intros. rewrite Nat.eqb_refl. reflexivity.
        + destruct (digits_differ (S p) dim i j) as [E|(k & Hk & E)].
          * exfalso. apply N. apply (digits_unique (S p) dim); auto; [lia|]. intros k Hk. symmetry. auto.
          * apply (rprod_0 _ _ k Hk). apply Nat.eqb_neq in E. rewrite E. reflexivity.
      - intros k Hk. rewrite Hx by exact Hk. unfold node. fold p. pose proof (digit_lt (S p) i k ltac:(lia)). pose proof (digit_lt (S p) j k ltac:(lia)).
        apply lagrange_node; [apply degree_le|lia|lia]. }
    rewrite E. destruct (Nat.eqb_spec j i) as [->|]; ring.
Qed.

(** New nodal values are the values of the old function. *)
Lemma C150_nodes_proof : forall a dim restrict U m c i v, m [] = refine -> (i < n_values a dim)%nat -> (c < 2 ^ dim)%nat ->
  exists s, adapt a dim restrict m (leaf U) = sons s /\ exists V, s c = leaf V /\
    V i v = rsum (n_values a dim) (fun j => U j v * rprod dim (fun k =>
      peval (lagrange (degree a) (digit (S (degree a)) j k)) ((INR (digit 2 c k) + lobatto_point (S (degree a)) (digit (S (degree a)) i k)) / 2))).
Proof.
  intros a dim restrict U m c i v Hm Hi Hc. cbn [adapt]. rewrite Hm. eexists. split; [reflexivity|]. eexists. split; reflexivity.
Qed.

(** ** Coarsening loses mass *)
Definition peak : tree := sons (fun c => leaf (fun i v => if Nat.eqb v 0 then if Nat.eqb (c + i) 3 then 1 else 0 else 0)).

Lemma corner i k : (k < 2)%nat -> in_son (son_of 2 (node cg_q1 i)) (node cg_q1 i) k = node cg_q1 i k.
Proof.
  intros Hk. unfold in_son. rewrite son_bit by exact Hk. unfold node. cbn [degree].
  pose proof (digit_lt 2 i k ltac:(lia)) as L. destruct (digit 2 i k) as [|[|]]; [| |lia]; cbn [lobatto_point nth].
  - destruct (Rlt_dec (1 / 2) 0); cbn; lra.
  - destruct (Rlt_dec (1 / 2) 1); cbn; lra.
Qed.
Lemma corner_son i : (i < 4)%nat -> son_of 2 (node cg_q1 i) = i.
Proof.
  intros Hi. apply (digits_unique 2 2); [lia|apply son_lt|exact Hi|]. intros k Hk. rewrite son_bit by exact Hk. unfold node. cbn [degree].
  pose proof (digit_lt 2 i k ltac:(lia)) as L. destruct (digit 2 i k) as [|[|]]; [| |lia]; cbn [lobatto_point nth].
  - destruct (Rlt_dec (1 / 2) 0); [lra|reflexivity].
  - destruct (Rlt_dec (1 / 2) 1); [reflexivity|lra].
Qed.

Lemma C150_coarse_refuted_proof : exists t m, all_states cg_q1 2 (fun u => 0 <= u 0%nat) t /\
  0 < total_of cg_q1 2 (fun _ => 1) t 0 /\ total_of cg_q1 2 (fun _ => 1) (adapt cg_q1 2 (inject cg_q1 2) m t) 0 = 0.
Proof.
  exists peak, (fun _ => coarsen). split; [|split].
  - cbn [peak all_states]. intros c _ i _. cbn [Nat.eqb]. destruct (Nat.eqb (c + i) 3); lra.
  - cbn [peak total_of]. change (2 ^ 2)%nat with 4%nat. 
    assert (P : forall c, (c < 4)%nat -> 0 < rsum (box_n_local cg_q1 2) (fun i => shape_mass cg_q1 2 (fun _ => 1 / 2) i * (if Nat.eqb 0 0 then if Nat.eqb (c + i) 3 then 1 else 0 else 0))).
    { intros c Hc. rewrite (rsum_ext _ _ (fun i => if Nat.eqb i (3 - c) then shape_mass cg_q1 2 (fun _ => 1 / 2) (3 - c) else 0)).
      - rewrite rsum_single by (change (box_n_local cg_q1 2) with 4%nat; lia). apply box_mass_pos. intros; lra.
      - intros i Hi. change (box_n_local cg_q1 2) with 4%nat in Hi. rewrite Nat.eqb_refl. destruct (Nat.eqb_spec i (3 - c)) as [->|N].
        + replace (c + (3 - c))%nat with 3%nat by lia. rewrite Nat.eqb_refl. ring.
        + replace (Nat.eqb (c + i) 3) with false by (symmetry; apply Nat.eqb_neq; lia). ring. }
    pose proof (P 0%nat ltac:(lia)). pose proof (P 1%nat ltac:(lia)). pose proof (P 2%nat ltac:(lia)). pose proof (P 3%nat ltac:(lia)).
    cbn [rsum]. lra.
  - cbn [peak adapt]. replace (forallb _ _) with true by reflexivity. cbn [total_of].
    rewrite (rsum_ext _ _ (fun _ => 0)); [apply rsum_0|]. intros i Hi. change (box_n_local cg_q1 2) with 4%nat in Hi.
    unfold inject. cbv zeta. rewrite (nodal cg_q1 2 _ i) by (auto; intros; apply corner; assumption). rewrite corner_son by exact Hi.
    cbn [values Nat.eqb]. replace (Nat.eqb (i + i) 3) with false by (symmetry; apply Nat.eqb_neq; lia). ring.
Qed.

(** ** Quadratic elements *)
Definition steep : nat -> nat -> R := fun i _ => match digit 3 i 0 with 2%nat => 10 | _ => 1 / 10 end.

Lemma C150_quadratic_refuted_proof : exists U, all_states cg_q2 2 (fun u => 0 < u 0%nat) (leaf U) /\
  ~ all_states cg_q2 2 (fun u => 0 < u 0%nat) (adapt cg_q2 2 (inject cg_q2 2) (mark None) (leaf U)).
Proof.
  exists steep. split.
  - cbn [all_states]. intros i _. unfold steep. destruct (digit 3 i 0) as [|[|[|]]]; lra.
  - cbn [mark adapt all_states]. intros H. specialize (H 0%nat ltac:(cbn; lia) 1%nat ltac:(cbn; lia)). revert H. apply Rle_not_lt.
    unfold prolongate, cell_value, shape_at, n_values. cbn [degree].
    set (F := fun k j => (if Nat.eqb k 0 then match j with 2%nat => 10 | _ => 1 / 10 end else 1) * peval (lagrange 2 j) (in_parent 0 (node cg_q2 1) k)).
    rewrite (rsum_ext _ _ (fun i => rprod 2 (fun k => F k (digit 3 i k)))).
    + rewrite (tensor 3 2 F) by lia. unfold F. cbn [rprod rsum Nat.eqb].
      assert (X0 : in_parent 0 (node cg_q2 1) 0 = 1 / 4) by (unfold in_parent, node; cbn; lra).
      assert (X1 : in_parent 0 (node cg_q2 1) 1 = 0) by (unfold in_parent, node; cbn; lra).
      rewrite X0, X1.
      pose proof (lagrange_sum 2 0 ltac:(lia)) as S0. cbn [rsum] in S0.
      assert (L0 : peval (lagrange 2 0) (1 / 4) = 3 / 8) by (unfold lagrange; cbn; field).
      assert (L1 : peval (lagrange 2 1) (1 / 4) = 3 / 4) by (unfold lagrange; cbn; field).
      assert (L2 : peval (lagrange 2 2) (1 / 4) = - (1 / 8)) by (unfold lagrange; cbn; field).
      rewrite L0, L1, L2, !Rmult_1_l, S0. lra.
    + intros i _. unfold F, steep. cbn [rprod Nat.eqb]. ring.
Qed.

(** ** Marks *)
Lemma forallb_sons dim m s :
  forallb (fun c => is_leaf (s c) && is_coarsen (m [c])) (seq 0 (2 ^ dim)) = true <-> all_coarsen dim m (sons s) [].
Proof.
  rewrite forallb_forall. unfold all_coarsen. cbn [app at_way]. split.
  - intros H c Hc. specialize (H c ltac:(apply in_seq; lia)). apply andb_true_iff in H as [A B].
    destruct (s c) as [U|]; [|discriminate]. split; [eexists; reflexivity|]. destruct (m [c]); [discriminate B|discriminate B|reflexivity].
  - intros H c Hc. apply in_seq in Hc. destruct (H c ltac:(lia)) as [[U E] M]. injection E as ->. rewrite M. reflexivity.
Qed.

Lemma C150_marks_proof : forall a dim restrict m t way U, way_in dim way -> at_way t way = Some (leaf U) ->
  let t' := adapt a dim restrict m t in
  (m way = keep -> at_way t' way = Some (leaf U)) /\
  (m way = refine -> exists s, at_way t' way = Some (sons s) /\ forall c, (c < 2 ^ dim)%nat -> exists V, s c = leaf V) /\
  (m way = coarsen -> at_way t' way = Some (leaf U) \/
     exists up c, way = (up ++ [c])%list /\ all_coarsen dim m t up).
Proof.
  intros a dim restrict m t way. revert m t. induction way as [|c way IH]; intros m t U HW E.
  - cbn [at_way] in E. injection E as ->. cbn [adapt at_way]. destruct (m []); (split; [|split]); intros H; try discriminate; [reflexivity| |left; reflexivity].
    eexists. split; [reflexivity|]. intros c _. eexists. reflexivity.
  - destruct t as [|s]; [discriminate|]. cbn [at_way] in E. cbn [adapt].
    destruct (forallb _ _) eqn:F.
    + apply forallb_sons in F. destruct (F c (HW c (or_introl eq_refl))) as [[V EV] M]. cbn [app at_way] in EV, M. injection EV as EV. rewrite EV in E.
      destruct way as [|]; [|discriminate]. (split; [|split]); intros H; [congruence|congruence|].
      right. exists [], c. split; [reflexivity|exact F].
    + destruct (IH (fun way => m (c :: way)) (s c) U ltac:(intros d Hd; apply HW; right; exact Hd) E) as (K & R & C).
      cbn [at_way]. repeat split; [exact K|exact R|]. intros H. destruct (C H) as [L|(up & d & -> & A)]; [left; exact L|].
      right. exists (c :: up), d. split; [reflexivity|]. intros e He. cbn [app at_way]. exact (A e He).
Qed.

Lemma C150_merge_proof : forall a dim restrict m t way, way_in dim way -> all_coarsen dim m t way ->
  exists U, (forall c, (c < 2 ^ dim)%nat -> at_way t (way ++ [c]) = Some (leaf (U c))) /\
    exists V, V = restrict U /\ at_way (adapt a dim restrict m t) way = Some (leaf V).
Proof.
  intros a dim restrict m t way. revert m t. induction way as [|c way IH]; intros m t HW A.
  - assert (P0 : (0 < 2 ^ dim)%nat) by (apply Nat.neq_0_lt_0, Nat.pow_nonzero; lia).
    destruct t as [|s]; [destruct (A 0%nat P0) as [[U0 E] _]; discriminate|].
    exists (fun c => values (s c)). split.
    + intros c Hc. destruct (A c Hc) as [[U E] _]. cbn [app at_way] in *. injection E as E. rewrite E. reflexivity.
    + eexists. split; [reflexivity|]. cbn [adapt]. rewrite (proj2 (forallb_sons dim m s) A). reflexivity.
  - assert (P0 : (0 < 2 ^ dim)%nat) by (apply Nat.neq_0_lt_0, Nat.pow_nonzero; lia).
    destruct t as [|s]; [destruct (A 0%nat P0) as [[U0 E] _]; discriminate|].
    destruct (IH (fun way => m (c :: way)) (s c) ltac:(intros d Hd; apply HW; right; exact Hd)) as (U & HU & V & EV & HV).
    { intros d Hd. exact (A d Hd). }
    exists U. split; [exact HU|]. exists V. split; [exact EV|]. cbn [adapt].
    destruct (forallb _ _) eqn:F; [|exact HV]. exfalso. apply forallb_sons in F.
    destruct (F c (HW c (or_introl eq_refl))) as [[W EW] _]. cbn [app at_way] in EW. injection EW as EW.
    destruct (A 0%nat P0) as [[X EX] _]. cbn [app at_way] in EX. rewrite EW in EX. destruct way; discriminate.
Qed.

(** ** Cases *)
Lemma marks_case : let t := sons (fun c => if Nat.eqb c 1 then sons (fun _ => leaf (fun _ _ => 1)) else leaf (fun _ _ => 2)) in
  let m := fun way => match way with [0%nat] => refine | [1%nat; _] => coarsen | _ => keep end in
  way_in 2 [0%nat] /\ at_way t [0%nat] = Some (leaf (fun _ _ => 2)) /\ m [0%nat] = refine /\ way_in 2 [1%nat] /\ all_coarsen 2 m t [1%nat].
Proof.
  cbv zeta. unfold way_in, all_coarsen. cbn. repeat split; intros; try lia; eauto.
Qed.

Definition partly : list nat -> flag := fun way => match way with [] => refine | [2%nat] => refine | _ => keep end.
Lemma partly_refines : (1 <= 2)%nat /\ forall m, In m [mark None; partly; mark (Some partly)] -> only_refines m.
Proof.
  split; [lia|]. intros m [<- | [<- | [<- | []]]] way; [discriminate| |]; destruct way as [|[|[|[|]]] [|]]; cbn; discriminate.
Qed.

Definition average (s : nat -> nat -> nat -> R) : nat -> nat -> R := fun _ v => (s 0%nat 0%nat v + s 1%nat 0%nat v + s 2%nat 0%nat v + s 3%nat 0%nat v) / 4.
Lemma average_projects : projects dg_q0 2 average.
Proof.
  unfold projects. cbv zeta. intros s i v Hi. change (box_n_local dg_q0 2) with 1%nat in Hi. replace i with 0%nat by lia.
  change (box_n_points dg_q0 2) with 1%nat. change (2 ^ 2)%nat with 4%nat.
  assert (Sh : forall x, shape_at dg_q0 2 0 x = 1) by (intros; unfold shape_at; cbn; ring).
  assert (CV : forall U x, cell_value dg_q0 2 U x v = U 0%nat v) by (intros; unfold cell_value, n_values; cbn [degree Nat.pow Nat.mul Nat.add rsum]; rewrite Sh; ring).
  cbn [rsum]. rewrite !Sh, !CV. unfold box_JxW, average. cbn. field.
Qed.

(** A gas at rest with two densities. *)
Definition two_densities : tree := sons (fun c => leaf (fun i v => match v with 0%nat => if Nat.eqb c 0 then 1 else 2 | 3%nat => 5 / 2 | _ => 0 end)).
Lemma two_densities_states : convex_set (fun u : nat -> R => 0 < u 0%nat) /\ all_states cg_q1 2 (fun u => 0 < u 0%nat) two_densities /\
  all_states cg_q1 2 (fun u => positive_gas 2 u /\ 0 * powr (u 0%nat) (7 / 5) <= internal_energy 2 u) two_densities.
Proof.
  split; [intros u v w Hu Hv Hw; nra|]. split.
  - cbn [two_densities all_states]. intros c _ i _. destruct (Nat.eqb c 0); lra.
  - cbn [two_densities all_states]. intros c _ i _. split; [split; [destruct (Nat.eqb c 0); lra|cbn; lra]|].
    rewrite Rmult_0_l. unfold internal_energy, total_energy, norm2, dot, momentum. cbn. lra.
Qed.
