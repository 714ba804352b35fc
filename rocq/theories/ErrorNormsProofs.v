(** * Proofs about the reported errors *)
From Coq Require Import Reals String List Bool Arith Lia Lra Psatz Permutation FunctionalExtensionality.
From Verif Require Import Extractor ExtractorProofs ErrorNorms ErrorNormsSpec.
Import ListNotations.
Local Open Scope R_scope.

Lemma e_value_ext f g l : (forall j w, In (j, w) l -> f j = g j) -> e_value f l = e_value g l.
Proof.
  induction l as [|(j, w) l IH]; intros H; [reflexivity|]. cbn.
  rewrite (H j w (or_introl eq_refl)). f_equal. apply IH. intros j' w' H'. apply (H j' w'). right. exact H'.
Qed.
Lemma e_value_zero l : e_value (fun _ => 0) l = 0.
Proof. induction l as [|a l IH]; cbn; [reflexivity|]. unfold e_value in IH. rewrite IH. ring. Qed.
Lemma e_value_scal c f l : e_value (fun i => c * f i) l = c * e_value f l.
Proof. induction l as [|a l IH]; cbn; [ring|]. unfold e_value in *. rewrite IH. ring. Qed.

Definition sumf {A} (g : A -> R) (l : list A) : R := fold_right (fun a s => g a + s) 0 l.
Lemma sumf_cons {A} (g : A -> R) a l : sumf g (a :: l) = g a + sumf g l.
Proof. reflexivity. Qed.
Lemma sumf_app {A} (g : A -> R) l m : sumf g (l ++ m) = sumf g l + sumf g m.
Proof. induction l as [|a l IH]; cbn [app]; [cbn; ring|]. rewrite !sumf_cons, IH. ring. Qed.
Lemma sumf_perm {A} (g : A -> R) l m : Permutation l m -> sumf g l = sumf g m.
Proof. induction 1; rewrite ?sumf_cons; try congruence; lra. Qed.
Lemma sumf_nonneg {A} (g : A -> R) l : (forall a, In a l -> 0 <= g a) -> 0 <= sumf g l.
Proof.
  induction l as [|a l IH]; intros H; [cbn; lra|]. assert (0 <= g a) by (apply H; left; reflexivity).
  assert (0 <= sumf g l) by (apply IH; intros; apply H; right; assumption). rewrite sumf_cons. lra.
Qed.
Lemma sumf_ext {A} (g h : A -> R) l : (forall a, In a l -> g a = h a) -> sumf g l = sumf h l.
Proof.
  induction l as [|a l IH]; intros H; cbn; [reflexivity|]. rewrite (H a (or_introl eq_refl)). f_equal.
  apply IH. intros. apply H. right. assumption.
Qed.
Lemma sumf_scal {A} c (g : A -> R) l : sumf (fun a => c * g a) l = c * sumf g l.
Proof. induction l as [|a l IH]; cbn [app]; [cbn; ring|]. rewrite !sumf_cons, IH. ring. Qed.
Lemma sumf_concat {A} (g : A -> R) ls : fold_right Rplus 0 (map (sumf g) ls) = sumf g (concat ls).
Proof. induction ls as [|l ls IH]; [reflexivity|]. cbn [map fold_right concat]. rewrite sumf_app, IH. reflexivity. Qed.

Lemma e_l1_sum M f : e_l1 M f = sumf (fun K => Rabs (e_cell_l1 f K)) (concat (e_cells M)).
Proof. unfold e_l1. rewrite <- sumf_concat. reflexivity. Qed.
Lemma e_l2_sum M f : e_l2 M f = sqrt (sumf (fun K => e_cell_l2 f K * e_cell_l2 f K) (concat (e_cells M))).
Proof.
  unfold e_l2. rewrite <- sumf_concat. f_equal. f_equal. apply map_ext. intros l. cbv zeta.
  apply sqrt_sqrt. apply (sumf_nonneg (fun K => e_cell_l2 f K * e_cell_l2 f K)). intros. apply Rle_0_sqr.
Qed.

(** The maximum. *)
Definition maxf (f : nat -> R) (l : list nat) : R := fold_right (fun i m => Rmax (Rabs (f i)) m) 0 l.
Lemma maxf_char f l : (forall i, In i l -> Rabs (f i) <= maxf f l) /\ 0 <= maxf f l /\
  (forall B, 0 <= B -> (forall i, In i l -> Rabs (f i) <= B) -> maxf f l <= B).
Proof.
  induction l as [|a l (H1 & H2 & H3)]; cbn; (split; [|split]).
  - contradiction.
  - lra.
  - intros; lra.
  - intros i [->|H]; [apply Rmax_l|]. eapply Rle_trans; [apply H1, H|apply Rmax_r].
  - eapply Rle_trans; [apply H2|apply Rmax_r].
  - intros B HB H. apply Rmax_lub; [apply H; left; reflexivity|apply H3; [exact HB|]]. intros. apply H. right. assumption.
Qed.
Lemma maxf_app f l m : maxf f (l ++ m) = Rmax (maxf f l) (maxf f m).
Proof.
  induction l as [|a l IH]; cbn.
  - rewrite Rmax_right; [reflexivity|apply maxf_char].
  - unfold maxf in IH. rewrite IH. apply Rmax_assoc.
Qed.
Lemma e_linf_max M f : e_linf M f = maxf f (concat (e_rows M)).
Proof.
  unfold e_linf. induction (e_rows M) as [|l ls IH]; [reflexivity|]. cbn [map fold_right concat]. rewrite maxf_app, <- IH. reflexivity.
Qed.
Lemma maxf_same f l m : (forall i, In i l <-> In i m) -> maxf f l = maxf f m.
Proof.
  intros H. destruct (maxf_char f l) as (A1 & A2 & A3). destruct (maxf_char f m) as (B1 & B2 & B3).
  apply Rle_antisym; [apply A3|apply B3]; try assumption; intros i Hi; [apply B1|apply A1]; apply H, Hi.
Qed.

Lemma poisoned_iff debug M : e_poisoned debug M = true <->
  debug = true /\ exists i l, In i (concat (e_rows M)) /\ e_constraint M i = Some l.
Proof.
  unfold e_poisoned. rewrite andb_true_iff, existsb_exists. split; intros (D & H); (split; [exact D|]).
  - destruct H as (rows & I & H). apply existsb_exists in H. destruct H as (i & J & H).
    destruct (e_constraint M i) as [l|] eqn:E; [|discriminate]. exists i, l. split; [|exact E]. apply in_concat. exists rows. split; assumption.
  - destruct H as (i & l & I & E). apply in_concat in I. destruct I as (rows & I & J). exists rows. split; [exact I|].
    apply existsb_exists. exists i. split; [exact J|]. rewrite E. reflexivity.
Qed.

Lemma component_same debug nz M N u a : same_mesh M N -> e_component debug nz M u a = e_component debug nz N u a.
Proof.
  intros (H1 & H2 & H3). unfold e_component.
  assert (P : e_poisoned debug M = e_poisoned debug N).
  { apply eq_true_iff_eq. rewrite !poisoned_iff, H3. split; intros (D & i & l & I & E); (split; [exact D|]); exists i, l; (split; [apply H1, I|exact E]). }
  assert (D : e_distribute M u = e_distribute N u) by (unfold e_distribute; rewrite H3; reflexivity).
  assert (LI : forall f, e_linf M f = e_linf N f) by (intros; rewrite !e_linf_max; apply maxf_same, H1).
  assert (L1 : forall f, e_l1 M f = e_l1 N f) by (intros; rewrite !e_l1_sum; apply sumf_perm, H2).
  assert (L2 : forall f, e_l2 M f = e_l2 N f) by (intros; rewrite !e_l2_sum; f_equal; apply sumf_perm, H2).
  rewrite P, D, !LI, !L1, !L2. reflexivity.
Qed.

Lemma loop_ext debug nz M N names U A entries acc :
  (forall k, e_component debug nz M (U k) (A k) = e_component debug nz N (U k) (A k)) ->
  e_loop debug nz M names U A entries acc = e_loop debug nz N names U A entries acc.
Proof.
  intros H. revert acc. induction entries as [|e l IH]; intros acc; [reflexivity|]. cbn [e_loop].
  destruct (find_index e names) as [k|]; [|reflexivity]. rewrite <- H.
  destruct (e_component debug nz M (U k) (A k)) as [((x, y), z)|]; [|reflexivity]. destruct acc as ((p, q), r). apply IH.
Qed.

Lemma C121_ranks_proof debug normalize M N names U A entries :
  same_mesh M N -> compute_error debug normalize M names U A entries = compute_error debug normalize N names U A entries.
Proof. intros H. apply loop_ext. intros k. apply component_same, H. Qed.

(** Exact states. *)
Lemma distribute_exact M u a : closed M -> obeys M a -> same_free M u a -> forall i, e_distribute M u i = a i.
Proof.
  intros C O S i. unfold e_distribute. destruct (e_constraint M i) as [l|] eqn:E; [|apply S, E].
  rewrite (O i l E). unfold e_value. fold (e_value u l). change (fold_right _ 0 l) with (e_value a l).
  apply e_value_ext. intros j w H. apply S. exact (C i l j w E H).
Qed.
Lemma norms_zero M f : (forall i, f i = 0) -> e_linf M f = 0 /\ e_l1 M f = 0 /\ e_l2 M f = 0.
Proof.
  intros H. assert (F : f = fun _ => 0) by (apply functional_extensionality; exact H). subst f.
  assert (V : forall K, e_cell_l1 (fun _ => 0) K = 0).
  { unfold e_cell_l1. induction K as [|(w, p) K IH]; [reflexivity|]. cbn [fold_right fst snd]. rewrite IH, e_value_zero, Rabs_R0. ring. }
  assert (W : forall K, e_cell_l2 (fun _ => 0) K = 0).
  { intros K. unfold e_cell_l2. replace (fold_right _ 0 K) with 0; [apply sqrt_0|].
    induction K as [|(w, p) K IH]; [reflexivity|]. cbn [fold_right fst snd]. rewrite <- IH, e_value_zero. ring. }
  rewrite e_linf_max, e_l1_sum, e_l2_sum. split; [|split].
  - apply Rle_antisym; [|apply maxf_char]. apply maxf_char; [lra|]. intros. rewrite Rabs_R0. lra.
  - rewrite (sumf_ext _ (fun _ => 0 * 0)); [rewrite sumf_scal; ring|]. intros K _. rewrite V, Rabs_R0. ring.
  - rewrite (sumf_ext _ (fun _ => 0 * 0)); [rewrite sumf_scal, Rmult_0_l; apply sqrt_0|]. intros K _. rewrite W. ring.
Qed.

Lemma C121_exact_proof normalize M names U A entries :
  closed M -> (forall e, In e entries -> In e names) ->
  (forall k, obeys M (A k) /\ same_free M (U k) (A k)) ->
  (normalize = true -> forall e k, In e entries -> find_index e names = Some k -> nonzero_norms M (A k)) ->
  compute_error false normalize M names U A entries = Some (0, 0, 0).
Proof.
  intros C HN HU HZ. unfold compute_error. induction entries as [|e l IH]; [reflexivity|]. cbn [e_loop].
  destruct (find_index e names) as [k|] eqn:F; [|exfalso; apply find_index_none in F; apply F, HN; left; reflexivity].
  destruct (HU k) as [O S].
  destruct (norms_zero M (fun i => e_distribute M (U k) i - A k i)) as (Z1 & Z2 & Z3).
  { intros i. rewrite (distribute_exact M (U k) (A k) C O S). ring. }
  unfold e_component. cbn [e_poisoned andb]. cbv zeta. rewrite Z1, Z2, Z3.
  assert (R0 : (if normalize then match e_div 0 (e_linf M (A k)), e_div 0 (e_l1 M (A k)), e_div 0 (e_l2 M (A k)) with
      | Some x, Some y, Some z => Some (x, y, z) | _, _, _ => None end else Some (0, 0, 0)) = Some (0, 0, 0)).
  { destruct normalize; [|reflexivity]. destruct (HZ eq_refl e k (or_introl eq_refl) F) as (N1 & N2 & N3). unfold e_div.
    destruct (Req_EM_T (e_linf M (A k)) 0); [contradiction|]. destruct (Req_EM_T (e_l1 M (A k)) 0); [contradiction|].
    destruct (Req_EM_T (e_l2 M (A k)) 0); [contradiction|]. unfold Rdiv. rewrite !Rmult_0_l. reflexivity. }
  rewrite R0, !Rplus_0_l. apply IH.
  - intros e' H. apply HN. right. exact H.
  - intros H e' k' H'. apply (HZ H e' k'). right. exact H'.
Qed.

Lemma loop_acc debug nz M names U A entries a b :
  e_loop debug nz M names U A entries (add3 a b) =
  match e_loop debug nz M names U A entries b with Some c => Some (add3 a c) | None => None end.
Proof.
  revert a b. induction entries as [|e l IH]; intros a b; [reflexivity|]. cbn [e_loop].
  destruct (find_index e names) as [k|]; [|reflexivity]. destruct (e_component debug nz M (U k) (A k)) as [((x, y), z)|]; [|reflexivity].
  destruct a as ((a1, a2), a3), b as ((b1, b2), b3). cbn [add3]. rewrite !Rplus_assoc.
  exact (IH (a1, a2, a3) (b1 + x, b2 + y, b3 + z)).
Qed.
Lemma loop_app debug nz M names U A l m acc :
  e_loop debug nz M names U A (l ++ m) acc =
  match e_loop debug nz M names U A l acc with Some c => e_loop debug nz M names U A m c | None => None end.
Proof.
  revert acc. induction l as [|e l IH]; intros acc; [reflexivity|]. cbn [app e_loop].
  destruct (find_index e names) as [k|]; [|reflexivity]. destruct (e_component debug nz M (U k) (A k)) as [((x, y), z)|]; [|reflexivity].
  destruct acc as ((p, q), r). apply IH.
Qed.
Lemma C121_sum_proof debug normalize M names U A l m :
  compute_error debug normalize M names U A (l ++ m) =
  match compute_error debug normalize M names U A l, compute_error debug normalize M names U A m with
  | Some a, Some b => Some (add3 a b)
  | _, _ => None
  end.
Proof.
  unfold compute_error. rewrite loop_app. destruct (e_loop debug normalize M names U A l (0, 0, 0)) as [a|]; [|reflexivity].
  assert (E : a = add3 a (0, 0, 0)) by (destruct a as ((x, y), z); cbn; rewrite !Rplus_0_r; reflexivity).
  rewrite E at 1. apply loop_acc.
Qed.

(** A vanishing maximum error means equality. *)
Lemma loop_pos debug M names U A entries a b c x y z :
  0 <= a -> e_loop debug false M names U A entries (a, b, c) = Some (x, y, z) -> 
  a <= x /\ (x <= 0 -> forall e k, In e entries -> find_index e names = Some k ->
     forall i, In i (concat (e_rows M)) -> e_distribute M (U k) i = A k i).
Proof.
  revert a b c. induction entries as [|e l IH]; intros a b c Ha; cbn [e_loop].
  - intros H. injection H as <- <- <-. split; [lra|]. intros _ e k [].
  - destruct (find_index e names) as [k|] eqn:F; [|discriminate]. unfold e_component.
    destruct (e_poisoned debug M); [discriminate|]. cbv zeta.
    set (err := fun i => e_distribute M (U k) i - A k i).
    assert (P : 0 <= e_linf M err) by (rewrite e_linf_max; apply maxf_char).
    intros H. assert (P2 : 0 <= a + e_linf M err) by lra. destruct (IH _ _ _ P2 H) as [L Z]. split; [lra|]. intros X e' k' [<-|I] F' i Hi.
    + rewrite F in F'. injection F' as <-.
      assert (Q : Rabs (err i) <= 0).
      { destruct (maxf_char err (concat (e_rows M))) as (G & _). specialize (G i Hi). rewrite <- e_linf_max in G. lra. }
      unfold err in Q. pose proof (Rabs_pos (e_distribute M (U k) i - A k i)).
      destruct (Req_dec (e_distribute M (U k) i - A k i) 0) as [E|E]; [lra|]. apply Rabs_pos_lt in E. lra.
    + exact (Z X e' k' I F' i Hi).
Qed.
Lemma C121_only_exact_proof debug M names U A entries l1 l2 :
  compute_error debug false M names U A entries = Some (0, l1, l2) ->
  forall e k i, In e entries -> find_index e names = Some k -> In i (concat (e_rows M)) ->
  match e_constraint M i with
  | None => U k i = A k i
  | Some l => fold_right (fun jw s => snd jw * U k (fst jw) + s) 0 l = A k i
  end.
Proof.
  intros H e k i He F Hi. destruct (loop_pos _ _ _ _ _ _ _ _ _ _ _ _ (Rle_refl 0) H) as [_ Z].
  specialize (Z (Rle_refl 0) e k He F i Hi). unfold e_distribute in Z. destruct (e_constraint M i); exact Z.
Qed.

(** Scaling. *)
Lemma maxf_scal c f l : 0 <= c -> maxf (fun i => c * f i) l = c * maxf f l.
Proof.
  intros H. induction l as [|a l IH]; cbn; [ring|]. unfold maxf in IH. rewrite IH, Rabs_mult, (Rabs_right c) by lra.
  apply RmaxRmult. exact H.
Qed.
Lemma norms_scal c M f : 0 <= c ->
  e_linf M (fun i => c * f i) = c * e_linf M f /\ e_l1 M (fun i => c * f i) = c * e_l1 M f /\
  e_l2 M (fun i => c * f i) = c * e_l2 M f.
Proof.
  intros H.
  assert (V : forall K, e_cell_l1 (fun i => c * f i) K = c * e_cell_l1 f K).
  { unfold e_cell_l1. induction K as [|(w, p) K IH]; cbn [fold_right fst snd]; [ring|]. rewrite IH, e_value_scal, Rabs_mult, (Rabs_right c) by lra. ring. }
  assert (W : forall K, e_cell_l2 (fun i => c * f i) K = c * e_cell_l2 f K).
  { intros K. unfold e_cell_l2. match goal with |- _ = c * sqrt ?X => replace (c * sqrt X) with (sqrt (c * c * X)) by (rewrite sqrt_mult_alt, sqrt_square by nra; reflexivity) end. f_equal.
    induction K as [|(w, p) K IH]; cbn [fold_right fst snd]; [ring|]. rewrite IH, e_value_scal. ring. }
  rewrite !e_linf_max, !e_l1_sum, !e_l2_sum. split; [|split].
  - apply maxf_scal, H.
  - rewrite <- sumf_scal. apply sumf_ext. intros K _. rewrite V, Rabs_mult, (Rabs_right c) by lra. ring.
  - match goal with |- _ = c * sqrt ?X => replace (c * sqrt X) with (sqrt (c * c * X)) by (rewrite sqrt_mult_alt, sqrt_square by nra; reflexivity) end. f_equal. rewrite <- sumf_scal. apply sumf_ext.
    intros K _. rewrite W. ring.
Qed.
Lemma e_div_scal c a b : c <> 0 -> e_div (c * a) (c * b) = e_div a b.
Proof.
  intros H. unfold e_div. destruct (Req_EM_T b 0) as [->|N].
  - rewrite Rmult_0_r. destruct (Req_EM_T 0 0); [reflexivity|contradiction].
  - destruct (Req_EM_T (c * b) 0) as [E|E]; [apply Rmult_integral in E; tauto|]. f_equal. field. split; assumption.
Qed.
Lemma C121_units_proof debug M names U A c entries :
  (forall k, 0 < c k) ->
  compute_error debug true M names (fun k i => c k * U k i) (fun k i => c k * A k i) entries =
  compute_error debug true M names U A entries.
Proof.
  intros H. unfold compute_error. generalize (0, 0, 0). induction entries as [|e l IH]; intros acc; [reflexivity|]. cbn [e_loop].
  destruct (find_index e names) as [k|]; [|reflexivity].
  assert (E : e_component debug true M (fun i => c k * U k i) (fun i => c k * A k i) = e_component debug true M (U k) (A k)).
  { unfold e_component. destruct (e_poisoned debug M); [reflexivity|]. cbv zeta. specialize (H k).
    assert (D : (fun i => e_distribute M (fun i => c k * U k i) i - c k * A k i) = (fun i => c k * (e_distribute M (U k) i - A k i))).
    { apply functional_extensionality. intros i. unfold e_distribute. destruct (e_constraint M i); [rewrite e_value_scal|]; ring. }
    rewrite D. destruct (norms_scal (c k) M (fun i => e_distribute M (U k) i - A k i) ltac:(lra)) as (-> & -> & ->).
    destruct (norms_scal (c k) M (A k) ltac:(lra)) as (-> & -> & ->). rewrite !e_div_scal by lra. reflexivity. }
  rewrite E. destruct (e_component debug true M (U k) (A k)) as [((x, y), z)|]; [|reflexivity]. destruct acc as ((p, q), r). apply IH.
Qed.

(** ** An interval of two cells; the right end is identified with the left end *)

Definition interval_cell (a b : nat) : ecell := [(1 / 2, [(a, 3 / 4); (b, 1 / 4)]); (1 / 2, [(a, 1 / 4); (b, 3 / 4)])].
Definition interval : emesh :=
  {| e_rows := [[0; 1]; [2]]%nat; e_cells := [[interval_cell 0 1]; [interval_cell 1 2]];
     e_constraint := fun i => match i with 2%nat => Some [(0%nat, 1)] | _ => None end |}.
Definition flow (k i : nat) : R := match k with 0%nat => 1 | 1%nat => 2 | 2%nat => 0 | _ => 5 end.

Lemma interval_exact : closed interval /\ (forall k, obeys interval (flow k) /\ same_free interval (flow k) (flow k)).
Proof.
  split.
  - intros i l j w H I. destruct i as [|[|[|i]]]; cbn in H; try discriminate. injection H as <-. destruct I as [I|[]]. injection I as <- <-. reflexivity.
  - intros k. split; [|intros i _; reflexivity]. intros i l H. destruct i as [|[|[|i]]]; cbn in H; try discriminate.
    injection H as <-. cbn. unfold flow. destruct k as [|[|[|k]]]; ring.
Qed.

(** A component whose analytic solution vanishes. *)
Lemma C121_vanishing_proof debug M names U A entries e k :
  In e entries -> find_index e names = Some k -> (forall i, A k i = 0) ->
  compute_error debug true M names U A entries = None.
Proof.
  intros I F Z. unfold compute_error. generalize (0, 0, 0). induction entries as [|e' l IH]; [contradiction|]. intros acc. cbn [e_loop].
  destruct I as [->|I].
  - rewrite F. unfold e_component. destruct (e_poisoned debug M); [reflexivity|]. cbv zeta.
    destruct (norms_zero M (A k) Z) as (-> & -> & ->). unfold e_div. destruct (Req_EM_T 0 0) as [_|N]; [reflexivity|contradiction].
  - destruct (find_index e' names) as [k'|]; [|reflexivity].
    destruct (e_component debug true M (U k') (A k')) as [((x, y), z)|]; [|reflexivity]. destruct acc as ((p, q), r). apply IH, I.
Qed.

(** The default setting (normalized, all components) for a flow along the first axis: the
    state is exact and yet no error can be reported. *)
Lemma C121_normalized_refuted_proof :
  exists (M : emesh) (U : nat -> nat -> R),
    closed M /\ (forall k, obeys M (U k)) /\
    compute_error false true M (component_names (euler_tables 2)) U U (component_names (euler_tables 2)) = None /\
    compute_error false false M (component_names (euler_tables 2)) U U (component_names (euler_tables 2)) = Some (0, 0, 0).
Proof.
  exists interval, flow. destruct interval_exact as [C O]. refine (conj C (conj _ (conj _ _))).
  - intros k. apply O.
  - apply (C121_vanishing_proof _ _ _ _ _ _ "m_2"%string 2); [right; right; left; reflexivity|reflexivity|reflexivity].
  - apply C121_exact_proof; [exact C|auto|exact O|discriminate].
Qed.

(** In a debug build the analytic solution contains NaNs on the periodic row. *)
Lemma C121_debug_refuted_proof :
  exists (M : emesh) (U : nat -> nat -> R),
    closed M /\ (forall k, obeys M (U k)) /\
    compute_error false false M (component_names (euler_tables 2)) U U (component_names (euler_tables 2)) = Some (0, 0, 0) /\
    compute_error true false M (component_names (euler_tables 2)) U U (component_names (euler_tables 2)) = None.
Proof.
  exists interval, flow. destruct interval_exact as [C O]. refine (conj C (conj _ (conj _ _))).
  - intros k. apply O.
  - apply C121_exact_proof; [exact C|auto|exact O|discriminate].
  - reflexivity.
Qed.

(** ... in fact whenever there is a constrained row. *)
Lemma C121_debug_none_proof normalize M names U A entries i l :
  In i (concat (e_rows M)) -> e_constraint M i = Some l -> entries <> [] ->
  compute_error true normalize M names U A entries = None.
Proof.
  intros I E H. destruct entries as [|e rest]; [contradiction|]. unfold compute_error. cbn [e_loop].
  destruct (find_index e names); [|reflexivity]. unfold e_component.
  assert (P : e_poisoned true M = true) by (apply poisoned_iff; split; [reflexivity|]; exists i, l; split; assumption).
  rewrite P. reflexivity.
Qed.

(** The interval on one rank. *)
Definition interval_one : emesh :=
  {| e_rows := [[2; 1; 0]]%nat; e_cells := [[interval_cell 1 2; interval_cell 0 1]]; e_constraint := e_constraint interval |}.
Lemma interval_same : same_mesh interval interval_one.
Proof. split; [|split; [|reflexivity]]; [cbn; tauto|]. cbn. apply perm_swap. Qed.

(** A state off by one in the first component. *)
Lemma interval_error : compute_error false false interval ["rho"; "m"]%string
  (fun k _ => match k with 0%nat => 2 | _ => 3 end) (fun k _ => match k with 0%nat => 1 | _ => 3 end) ["rho"]%string = Some (1, 2, sqrt 2).
Proof.
  unfold compute_error. cbn [e_loop find_index String.eqb Ascii.eqb Bool.eqb]. unfold e_component. cbn [e_poisoned andb]. cbv zeta.
  assert (E : (fun i => e_distribute interval (fun _ => 2) i - 1) = (fun _ => 1)).
  { apply functional_extensionality. intros [|[|[|i]]]; cbn; ring. }
  cbv beta. rewrite E, e_linf_max, e_l1_sum, e_l2_sum, !Rplus_0_l.
  assert (V : forall a b, e_cell_l1 (fun _ => 1) (interval_cell a b) = 1).
  { intros. unfold e_cell_l1, interval_cell, e_value. cbn. rewrite !Rabs_right by lra. field. }
  assert (W : forall a b, e_cell_l2 (fun _ => 1) (interval_cell a b) = 1).
  { intros. unfold e_cell_l2, interval_cell, e_value. cbn. transitivity (sqrt 1); [f_equal; field|apply sqrt_1]. }
  do 2 f_equal; [f_equal|].
  - unfold maxf. cbn. rewrite Rabs_R1. unfold Rmax. repeat destruct (Rle_dec _ _); lra.
  - unfold sumf. cbn [interval e_cells concat app fold_right]. rewrite !V, Rabs_R1. ring.
  - unfold sumf. cbn [interval e_cells concat app fold_right]. rewrite !W. f_equal. ring.
Qed.
