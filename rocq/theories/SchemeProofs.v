(** * Lemmas about the spatial discretization *)
From Coq Require Import Reals List Arith Bool Lia Lra Permutation FunctionalExtensionality.
From Verif Require Import Scheme SchemeSpec.
Import ListNotations.
Local Open Scope R_scope.

(** ** Sums *)

Lemma lsum_ext {A} (f g : A -> R) l :
  (forall x, In x l -> f x = g x) -> lsum f l = lsum g l.
Proof.
  induction l as [|x r IH]; simpl; intros H; [reflexivity|].
  rewrite (H x) by auto. rewrite IH; auto.
Qed.

Lemma lsum_plus {A} (f g : A -> R) l : lsum (fun x => f x + g x) l = lsum f l + lsum g l.
Proof. induction l as [|x r IH]; simpl; [lra|]. rewrite IH; lra. Qed.

Lemma lsum_minus {A} (f g : A -> R) l : lsum (fun x => f x - g x) l = lsum f l - lsum g l.
Proof. induction l as [|x r IH]; simpl; [lra|]. rewrite IH; lra. Qed.

Lemma lsum_scal {A} a (f : A -> R) l : lsum (fun x => a * f x) l = a * lsum f l.
Proof. induction l as [|x r IH]; simpl; [lra|]. rewrite IH; lra. Qed.

Lemma lsum_opp {A} (f : A -> R) l : lsum (fun x => - f x) l = - lsum f l.
Proof. induction l as [|x r IH]; simpl; [lra|]. rewrite IH; lra. Qed.

Lemma lsum_zero {A} (f : A -> R) l : (forall x, In x l -> f x = 0) -> lsum f l = 0.
Proof.
  induction l as [|x r IH]; simpl; intros H; [reflexivity|].
  rewrite (H x), IH; auto; lra.
Qed.

Lemma lsum_nonneg {A} (f : A -> R) l : (forall x, In x l -> 0 <= f x) -> 0 <= lsum f l.
Proof.
  induction l as [|x r IH]; simpl; intros H; [lra|].
  assert (0 <= f x) by auto. assert (0 <= lsum f r) by auto. lra.
Qed.

Lemma lsum_const {A} a (l : list A) : lsum (fun _ => a) l = INR (length l) * a.
Proof.
  induction l as [|x r IH]; [simpl; lra|].
  cbn [lsum length]. rewrite IH, S_INR. lra.
Qed.

Lemma lsum_swap {A B} (f : A -> B -> R) l m :
  lsum (fun i => lsum (fun j => f i j) m) l = lsum (fun j => lsum (fun i => f i j) l) m.
Proof.
  induction l as [|x r IH]; simpl.
  - symmetry; apply lsum_zero; reflexivity.
  - rewrite IH, <- lsum_plus. reflexivity.
Qed.

Lemma lsum_perm {A} (f : A -> R) l m : Permutation l m -> lsum f l = lsum f m.
Proof. induction 1; simpl; lra. Qed.

Lemma lsum_single {A} (eqd : forall x y : A, {x = y} + {x <> y}) (f : A -> R) j l :
  NoDup l -> In j l -> lsum (fun x => if eqd x j then f x else 0) l = f j.
Proof.
  induction l as [|x r IH]; intros ND Hin; [destruct Hin|].
  inversion_clear ND as [|? ? Hx Hr]. simpl. destruct (eqd x j) as [->|Hne].
  - rewrite lsum_zero; [lra|]. intros y Hy. destruct (eqd y j); [subst; tauto|reflexivity].
  - destruct Hin as [->|Hin]; [congruence|]. rewrite IH; auto; lra.
Qed.

Lemma lsum_indicator (f : nat -> R) nb L :
  NoDup nb -> NoDup L -> incl nb L ->
  lsum f nb = lsum (fun j => if in_dec Nat.eq_dec j nb then f j else 0) L.
Proof.
  intros NDn NDL Hincl. induction nb as [|x r IH].
  - simpl. symmetry. apply lsum_zero. intros. reflexivity.
  - inversion_clear NDn as [|? ? Hx Hr]. cbn [lsum].
    rewrite IH; [|assumption|intros y Hy; apply Hincl; right; exact Hy].
    rewrite <- (lsum_single Nat.eq_dec f x L NDL (Hincl x (or_introl eq_refl))).
    rewrite <- lsum_plus. apply lsum_ext. intros y Hy.
    destruct (Nat.eq_dec y x) as [->|Hne];
      destruct (in_dec Nat.eq_dec x (x :: r)) as [H1|H1] eqn:E1.
    + destruct (in_dec Nat.eq_dec x r); [tauto|lra].
    + elim H1; left; reflexivity.
    + destruct (in_dec Nat.eq_dec y r), (in_dec Nat.eq_dec y (x :: r)) as [[H|H]|H]; simpl in *;
        try congruence; try tauto; lra.
    + elim H1; left; reflexivity.
Qed.

(** Antisymmetric pair contributions cancel. *)
Lemma antisymmetric_sum (g : nat -> nat -> R) (nb : nat -> list nat) L :
  NoDup L ->
  (forall i, In i L -> NoDup (nb i) /\ incl (nb i) L) ->
  (forall i j, In i L -> In j (nb i) -> In i (nb j)) ->
  (forall i j, In i L -> In j (nb i) -> g j i = - g i j) ->
  lsum (fun i => lsum (fun j => g i j) (nb i)) L = 0.
Proof.
  intros ND Hnb Hsym Hg.
  set (h := fun i j => if in_dec Nat.eq_dec j (nb i) then g i j else 0).
  assert (E : lsum (fun i => lsum (fun j => g i j) (nb i)) L =
              lsum (fun i => lsum (fun j => h i j) L) L).
  { apply lsum_ext. intros i Hi. destruct (Hnb i Hi). apply lsum_indicator; assumption. }
  rewrite E.
  assert (E2 : lsum (fun i => lsum (fun j => h i j) L) L =
               - lsum (fun i => lsum (fun j => h i j) L) L).
  { rewrite lsum_swap at 1. rewrite <- lsum_opp. apply lsum_ext. intros j Hj.
    rewrite <- lsum_opp. apply lsum_ext. intros i Hi. unfold h.
    destruct (in_dec Nat.eq_dec j (nb i)) as [H1|H1];
      destruct (in_dec Nat.eq_dec i (nb j)) as [H2|H2].
    - rewrite (Hg j i Hj H2). lra.
    - elim H2. apply Hsym; assumption.
    - elim H1. apply Hsym; assumption.
    - lra. }
  lra.
Qed.

Lemma fold_add {A K} (f : state K -> A -> state K) (g : A -> state K) l u0 k :
  (forall u j, f u j k = u k + g j k) ->
  fold_left f l u0 k = u0 k + lsum (fun j => g j k) l.
Proof.
  intros H. revert u0; induction l as [|x r IH]; intros u0; simpl; [lra|].
  rewrite IH, H. lra.
Qed.

Lemma fold_left_minus {A} (f : A -> R) l a :
  fold_left (fun s j => s - f j) l a = a - lsum f l.
Proof. revert a; induction l as [|x r IH]; intros a; simpl; [lra|]. rewrite IH; lra. Qed.

Lemma fold_left_plus l a : fold_left Rplus l a = a + lsum (fun x => x) l.
Proof. revert a; induction l as [|x r IH]; intros a; simpl; [lra|]. rewrite IH; lra. Qed.

Lemma lsum_map {A B} (f : B -> R) (g : A -> B) l : lsum f (map g l) = lsum (fun x => f (g x)) l.
Proof. induction l as [|x r IH]; simpl; [reflexivity|]. now rewrite IH. Qed.

(** ** Patterns *)

Lemma neighbours_in M i j :
  symmetric_pattern M -> (i < n_rows M)%nat ->
  In j (neighbours M i) <-> In j (columns M i) /\ j <> i.
Proof.
  intros H Hi. destruct (H i Hi) as [nb [E [ND _]]]. unfold neighbours. rewrite E. simpl.
  inversion_clear ND. split.
  - intros Hj; split; [auto|]. intros ->; tauto.
  - intros [[->|?] ?]; [congruence|assumption].
Qed.

Lemma neighbours_bound M i j :
  symmetric_pattern M -> (i < n_rows M)%nat -> In j (neighbours M i) ->
  (j < n_rows M)%nat /\ In i (neighbours M j) /\ i <> j.
Proof.
  intros H Hi Hj. destruct (H i Hi) as [nb [E [ND Hs]]].
  assert (Hj' : In j nb) by (unfold neighbours in Hj; rewrite E in Hj; exact Hj).
  destruct (Hs j Hj') as [Hb Hc]. split; [exact Hb|].
  assert (i <> j) by (inversion_clear ND; intros ->; tauto).
  split; [|assumption]. apply neighbours_in; auto.
Qed.

Lemma neighbours_nodup M i :
  symmetric_pattern M -> (i < n_rows M)%nat -> NoDup (neighbours M i).
Proof.
  intros H Hi. destruct (H i Hi) as [nb [E [ND _]]]. unfold neighbours; rewrite E.
  inversion_clear ND; assumption.
Qed.

Lemma columns_split M i :
  symmetric_pattern M -> (i < n_rows M)%nat -> columns M i = i :: neighbours M i.
Proof.
  intros H Hi. destruct (H i Hi) as [nb [E _]]. unfold neighbours; rewrite E; reflexivity.
Qed.

Lemma constrained_false M i :
  symmetric_pattern M -> (i < n_rows M)%nat ->
  constrained M i = false <-> neighbours M i <> [].
Proof.
  intros H Hi. unfold constrained. rewrite (columns_split M i H Hi). simpl.
  destruct (neighbours M i); simpl; split; congruence.
Qed.

Lemma neighbour_active M i j :
  symmetric_pattern M -> (i < n_rows M)%nat -> In j (neighbours M i) ->
  constrained M i = false /\ constrained M j = false.
Proof.
  intros H Hi Hj. destruct (neighbours_bound M i j H Hi Hj) as [Hb [Hin _]].
  split; apply constrained_false; auto; intros E; [rewrite E in Hj; destruct Hj|].
  rewrite E in Hin; destruct Hin.
Qed.

Lemma active_rows_in M i : In i (active_rows M) <-> (i < n_rows M)%nat /\ constrained M i = false.
Proof.
  unfold active_rows. rewrite filter_In, in_seq, negb_true_iff. split; intros [? ?]; split; auto; lia.
Qed.

Lemma active_rows_nodup M : NoDup (active_rows M).
Proof. apply NoDup_filter, seq_NoDup. Qed.

Lemma active_spec M i : active M i <-> In i (active_rows M).
Proof.
  rewrite active_rows_in. unfold active, constrained. rewrite Nat.eqb_neq. tauto.
Qed.

(** Rows with neighbours, and their neighbours, carry unknowns. *)
Lemma constrained_active M i : (i < n_rows M)%nat -> constrained M i = false -> active M i.
Proof. intros A B. apply active_spec, active_rows_in. auto. Qed.

Lemma row_active M i j : symmetric_pattern M -> (i < n_rows M)%nat -> In j (neighbours M i) -> active M i.
Proof. intros A B D. apply constrained_active; [exact B|]. exact (proj1 (neighbour_active M i j A B D)). Qed.

Lemma col_active M i j : symmetric_pattern M -> (i < n_rows M)%nat -> In j (neighbours M i) -> active M j.
Proof.
  intros A B D. apply constrained_active; [exact (proj1 (neighbours_bound M i j A B D))|].
  exact (proj2 (neighbour_active M i j A B D)).
Qed.

Lemma cols_active M i j : symmetric_pattern M -> active M i -> In j (columns M i) -> active M j.
Proof.
  intros A B D. rewrite (columns_split M i A (proj1 B)) in D. destruct D as [<-|D]; [exact B|].
  exact (col_active M i j A (proj1 B) D).
Qed.

Lemma pattern_sum M (g : nat -> nat -> R) :
  symmetric_pattern M ->
  (forall i j, (i < n_rows M)%nat -> In j (neighbours M i) -> g j i = - g i j) ->
  lsum (fun i => lsum (fun j => g i j) (neighbours M i)) (active_rows M) = 0.
Proof.
  intros H Hg. apply antisymmetric_sum.
  - apply active_rows_nodup.
  - intros i Hi. apply active_rows_in in Hi. split.
    + apply neighbours_nodup; tauto.
    + intros j Hj. apply active_rows_in.
      destruct (neighbour_active M i j H (proj1 Hi) Hj).
      destruct (neighbours_bound M i j H (proj1 Hi) Hj). tauto.
  - intros i j Hi Hj. apply active_rows_in in Hi.
    destruct (neighbours_bound M i j H (proj1 Hi) Hj). tauto.
  - intros i j Hi Hj. apply active_rows_in in Hi. apply Hg; tauto.
Qed.

(** ** Viscosity *)

Lemma cnorm_neg c : cnorm (neg c) = cnorm c.
Proof.
  unfold cnorm, neg. f_equal. induction c as [|x r IH]; simpl; [reflexivity|]. rewrite IH. lra.
Qed.

Lemma cdiv_neg c a : cdiv (neg c) a = neg (cdiv c a).
Proof.
  unfold cdiv, neg. rewrite !map_map. apply map_ext. intros x. unfold Rdiv. lra.
Qed.

Lemma neg_neg c : neg (neg c) = c.
Proof. unfold neg. rewrite map_map. rewrite <- (map_id c) at 2. apply map_ext. intros; lra. Qed.

Lemma cnorm_nonneg c : 0 <= cnorm c.
Proof. apply sqrt_pos. Qed.

Lemma squares_nonneg c : 0 <= fold_right (fun x s => x * x + s) 0 c.
Proof. induction c as [|a c IH]; simpl; [lra|]. pose proof (Rle_0_sqr a). unfold Rsqr in *. lra. Qed.

Lemma cnorm_cdiv c : 0 < cnorm c -> cnorm (cdiv c (cnorm c)) = 1.
Proof.
  intros H. set (a := cnorm c) in *. unfold cnorm.
  assert (E : forall c, fold_right (fun x s => x * x + s) 0 (cdiv c a) =
                   fold_right (fun x s => x * x + s) 0 c / (a * a)).
  { clearbody a. clear c. intros c. unfold cdiv. induction c as [|b c IH]; simpl; [field; lra|]. rewrite IH. field. lra. }
  rewrite E. replace (a * a) with (fold_right (fun x s => x * x + s) 0 c).
  - unfold Rdiv. rewrite Rinv_r; [apply sqrt_1|]. intros E0. unfold a, cnorm in H. rewrite E0, sqrt_0 in H. lra.
  - unfold a, cnorm. symmetry. apply sqrt_sqrt, squares_nonneg.
Qed.

Lemma wave_viscosity_skew {K} (Sy : system K) M old i j :
  symmetric_riemann Sy M old -> skew_at M i j -> active M i -> In j (columns M i) ->
  wave_viscosity Sy M old j i = wave_viscosity Sy M old i j.
Proof.
  intros HR Hs Hi Hj. unfold wave_viscosity. unfold skew_at in Hs. rewrite Hs.
  rewrite cnorm_neg, cdiv_neg. destruct (Req_EM_T (cnorm (c_ij M i j)) 0) as [E|E].
  - rewrite E, !Rmult_0_l. reflexivity.
  - f_equal. rewrite (HR i j Hi Hj E). reflexivity.
Qed.

Lemma viscosity_eq {K} (Sy : system K) M old i j :
  viscosity Sy old i j (c_ij M i j) = wave_viscosity Sy M old i j.
Proof. destruct old; reflexivity. Qed.

Lemma position_some j l :
  In j l -> exists p, position j l = Some p /\ nth_error l p = Some j.
Proof.
  induction l as [|x r IH]; intros H; [destruct H|]. simpl.
  destruct (Nat.eqb_spec x j) as [->|Hne]; [exists 0%nat; auto|].
  destruct H as [->|H]; [congruence|]. destruct (IH H) as [p [E1 E2]].
  exists (Datatypes.S p). rewrite E1. auto.
Qed.

Lemma position_neighbour M i j :
  symmetric_pattern M -> (i < n_rows M)%nat -> In j (neighbours M i) ->
  exists p, position j (columns M i) = Some (Datatypes.S p) /\
            nth_error (columns M i) (Datatypes.S p) = Some j.
Proof.
  intros H Hi Hj. destruct (neighbours_bound M i j H Hi Hj) as [_ [_ Hne]].
  rewrite (columns_split M i H Hi). simpl.
  destruct (Nat.eqb_spec i j) as [->|_]; [congruence|].
  destruct (position_some j _ Hj) as [p [E1 E2]]. exists p. rewrite E1. auto.
Qed.

Lemma dij_step2_upper {K} (Sy : system K) M old d0 i j :
  symmetric_pattern M -> valid_numbering M -> (i < n_rows M)%nat -> In j (neighbours M i) ->
  below M j i = false ->
  dij_step2 Sy M old d0 i j = wave_viscosity Sy M old i j.
Proof.
  intros H [HL _] Hi Hj Hb. unfold dij_step2.
  rewrite (proj1 (neighbour_active M i j H Hi Hj)).
  destruct (position_neighbour M i j H Hi Hj) as [p [E1 E2]]. rewrite E1.
  destruct (all_below_diagonal M i (Datatypes.S p)) eqn:E; [|apply viscosity_eq].
  unfold all_below_diagonal in E. rewrite forallb_forall in E.
  specialize (E i (HL i Hi)). rewrite E2 in E. congruence.
Qed.

Lemma below_total M i j :
  valid_numbering M -> (i < n_rows M)%nat -> (j < n_rows M)%nat -> i <> j ->
  below M j i = true -> below M i j = false.
Proof.
  intros [_ HI] Hi Hj Hne. unfold below.
  rewrite andb_true_iff, Nat.eqb_eq, Nat.ltb_lt. intros [E L].
  rewrite E, Nat.eqb_refl. simpl. apply Nat.ltb_ge. lia.
Qed.

Lemma below_none M i j :
  valid_numbering M -> (i < n_rows M)%nat -> (j < n_rows M)%nat -> i <> j ->
  owner M i = owner M j -> below M j i = false -> below M i j = true.
Proof.
  intros [_ HI] Hi Hj Hne E. unfold below. rewrite E, Nat.eqb_refl. simpl.
  rewrite Nat.ltb_ge, Nat.ltb_lt. intros L.
  destruct (Nat.eq_dec (index M i) (index M j)) as [E2|]; [|lia].
  elim Hne. auto.
Qed.

Lemma pair_listed_spec M i j :
  existsb (fun p => (fst p =? i) && (snd p =? j))%nat (coupling_pairs M) = true <->
  In (i, j) (coupling_pairs M).
Proof.
  rewrite existsb_exists. split.
  - intros [[a b] [H1 H2]]. simpl in H2. rewrite andb_true_iff, !Nat.eqb_eq in H2.
    destruct H2; subst; assumption.
  - intros H. exists (i, j). simpl. rewrite !Nat.eqb_refl. auto.
Qed.

(** The upper triangular part after the boundary fix up. *)
Lemma dij_boundary_upper {K} (Sy : system K) M old d0 i j :
  symmetric_pattern M -> valid_numbering M -> pairs_listed M -> symmetric_riemann Sy M old ->
  (i < n_rows M)%nat -> In j (neighbours M i) -> below M j i = false ->
  dij_boundary Sy M old (dij_step2 Sy M old d0) i j =
  Rmax (wave_viscosity Sy M old i j) (wave_viscosity Sy M old j i).
Proof.
  intros H HV HP HR Hi Hj Hb. unfold dij_boundary.
  rewrite (dij_step2_upper Sy M old d0 i j H HV Hi Hj Hb), Hb, andb_true_r, viscosity_eq.
  destruct (existsb _ _) eqn:E; [reflexivity|].
  pose proof (row_active M i j H Hi Hj) as Ha. apply neighbours_in in Hj; auto. destruct Hj as [Hj Hne].
  destruct (HP i j Ha Hj (not_eq_sym Hne)) as [Hs|[Hl _]].
  - rewrite (wave_viscosity_skew Sy M old i j HR Hs Ha Hj). symmetry. apply Rmax_left. lra.
  - apply (proj2 (pair_listed_spec M i j)) in Hl. congruence.
Qed.

Lemma dij_value {K} (Sy : system K) M nm old d0 i j :
  symmetric_pattern M -> valid_numbering M -> pairs_listed M -> symmetric_riemann Sy M old ->
  (i < n_rows M)%nat -> In j (neighbours M i) ->
  dij_matrix Sy M nm old d0 i j =
  Rmax (wave_viscosity Sy M old i j) (wave_viscosity Sy M old j i).
Proof.
  intros H HV HP HR Hi Hj. destruct (neighbours_bound M i j H Hi Hj) as [Hjb [Hij Hne]].
  unfold dij_matrix. destruct (Nat.eqb_spec i j); [contradiction|].
  unfold dij_symmetrized. destruct (below M j i) eqn:E.
  - rewrite (dij_boundary_upper Sy M old d0 j i); auto.
    + apply Rmax_comm.
    + apply below_total; auto.
  - apply dij_boundary_upper; auto.
Qed.

Lemma wave_viscosity_nonneg {K} (Sy : system K) M old i j :
  nonneg_riemann Sy -> 0 <= wave_viscosity Sy M old i j.
Proof. intros HN. apply Rmult_le_pos; [apply cnorm_nonneg|apply HN]. Qed.

Lemma dij_diag {K} (Sy : system K) M nm old d0 i :
  symmetric_pattern M -> (i < n_rows M)%nat ->
  dij_matrix Sy M nm old d0 i i =
  - Rmax (lsum (fun j => dij_matrix Sy M nm old d0 i j) (neighbours M i)) (1000000 * nm).
Proof.
  intros H Hi. unfold dij_matrix at 1. rewrite Nat.eqb_refl. unfold dij_diagonal.
  rewrite fold_left_minus.
  rewrite (lsum_ext _ (fun j => dij_matrix Sy M nm old d0 i j)).
  - unfold Rmin, Rmax. destruct (Rle_dec _ _), (Rle_dec _ _); lra.
  - intros j Hj. destruct (neighbours_bound M i j H Hi Hj) as [_ [_ Hne]].
    unfold dij_matrix. destruct (Nat.eqb_spec i j); [contradiction|]. reflexivity.
Qed.

Lemma row_tau_bound {K} (Sy : system K) M nm cfl old d0 tau :
  symmetric_pattern M -> positive_masses M -> 0 < nm -> 0 < cfl ->
  (forall t, In t (row_tau Sy M nm cfl old d0) -> tau <= t) ->
  forall i, active M i ->
    tau * (2 * - dij_matrix Sy M nm old d0 i i) <= cfl * mass M i.
Proof.
  intros H HM Hnm Hc Ht i Hi. apply active_spec in Hi.
  pose proof (proj1 (proj1 (active_rows_in M i) Hi)) as Hb.
  assert (Hd : dij_matrix Sy M nm old d0 i i < 0).
  { rewrite (dij_diag Sy M nm old d0 i H Hb).
    pose proof (Rmax_r (lsum (fun j => dij_matrix Sy M nm old d0 i j) (neighbours M i)) (1000000 * nm)).
    lra. }
  specialize (Ht (cfl * mass M i / (-2 * dij_matrix Sy M nm old d0 i i))).
  assert (tau <= cfl * mass M i / (-2 * dij_matrix Sy M nm old d0 i i)).
  { apply Ht. unfold row_tau. apply in_map_iff. exists i. auto. }
  apply Rmult_le_compat_r with (r := 2 * - dij_matrix Sy M nm old d0 i i) in H0; [|lra].
  replace (cfl * mass M i / (-2 * dij_matrix Sy M nm old d0 i i) *
           (2 * - dij_matrix Sy M nm old d0 i i)) with (cfl * mass M i) in H0.
  - exact H0.
  - field. lra.
Qed.

Lemma row_tau_positive {K} (Sy : system K) M nm cfl old d0 t :
  symmetric_pattern M -> positive_masses M -> 0 < nm -> 0 < cfl ->
  In t (row_tau Sy M nm cfl old d0) -> 0 < t.
Proof.
  intros H HM Hnm Hc Ht. unfold row_tau in Ht. apply in_map_iff in Ht.
  destruct Ht as [i [<- Hi]]. pose proof (proj2 (active_spec M i) Hi) as Ha.
  apply active_rows_in in Hi. destruct Hi as [Hb _].
  assert (Hd : dij_matrix Sy M nm old d0 i i < 0).
  { rewrite (dij_diag Sy M nm old d0 i H Hb).
    pose proof (Rmax_r (lsum (fun j => dij_matrix Sy M nm old d0 i j) (neighbours M i)) (1000000 * nm)).
    lra. }
  destruct (HM i Ha) as [Hm _]. apply Rdiv_lt_0_compat; [|lra].
  apply Rmult_lt_0_compat; assumption.
Qed.
