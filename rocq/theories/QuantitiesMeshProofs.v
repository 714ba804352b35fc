(** * Proofs about the points of manifolds *)
From Coq Require Import Reals String List Bool Arith Lia Lra Permutation Sorted.
From Verif Require Import QuantitiesMesh QuantitiesMeshSpec.
Import ListNotations.
Local Open Scope R_scope.

(** ** The map of a rank *)
Definition key (p : interior_point) : nat := fst (fst p).

Fixpoint sorted_from (b : nat) (m : list interior_point) : Prop :=
  match m with [] => True | p :: r => (b <= key p)%nat /\ sorted_from (S (key p)) r end.

Lemma sorted_weaken b c m : (c <= b)%nat -> sorted_from b m -> sorted_from c m.
Proof. destruct m as [|p r]; cbn; [auto|]. intros H [A B]. split; [lia|exact B]. Qed.

Lemma assign_sorted m : forall p b, sorted_from b m -> (b <= key p)%nat -> sorted_from b (assign m p).
Proof.
  induction m as [|q r IH]; intros p b H L; [cbn; auto|]. destruct H as [H1 H2]. cbn [assign].
  fold (key p) (key q). destruct (Nat.ltb_spec (key p) (key q)) as [C|C]; [split; [exact L|split; [exact C|exact H2]]|].
  destruct (Nat.eqb_spec (key p) (key q)) as [E|E].
  - split; [exact L|]. rewrite E. exact H2.
  - split; [exact H1|]. apply IH; [exact H2|lia].
Qed.

Lemma sorted_below m : forall b, sorted_from b m -> forall y, In y m -> (b <= key y)%nat.
Proof.
  induction m as [|z r IH]; intros b H y I; [destruct I|]. destruct H as [A B]. destruct I as [->|I]; [exact A|].
  specialize (IH _ B y I). lia.
Qed.

Lemma assign_in m : forall p q b, sorted_from b m -> (In q (assign m p) <-> q = p \/ (In q m /\ key q <> key p)).
Proof.
  induction m as [|h r IH]; intros p q b H; cbn [assign In].
  - split; [intros [->|[]]; auto|intros [->|[[] _]]; auto].
  - destruct H as [H1 H2]. unfold key in *.
    assert (TL : forall y, In y r -> (fst (fst h) < fst (fst y))%nat).
    { intros y Hy. pose proof (sorted_below _ _ H2 y Hy) as Q. unfold key in Q. lia. }
    destruct (Nat.ltb_spec (fst (fst p)) (fst (fst h))).
    + cbn. split.
      * intros [->|[->|I]]; [auto|right; split; [auto|lia]|right; split; [auto|]]. specialize (TL _ I). lia.
      * intros [->|[[->|I] _]]; auto.
    + destruct (Nat.eqb_spec (fst (fst p)) (fst (fst h))) as [E|E]; cbn.
      * split; [intros [->|I]; [auto|right; split; [auto|specialize (TL _ I); lia]]|].
        intros [->|[[->|I] N]]; [auto|lia|auto].
      * rewrite (IH p q (S (fst (fst h))) H2). split.
        -- intros [->|[->|[I N]]]; [right; split; [auto|lia]|auto|right; auto].
        -- intros [->|[[->|I] N]]; auto.
Qed.

Definition consistent (l : list interior_point) : Prop := forall p q, In p l -> In q l -> key p = key q -> p = q.

Lemma fold_assign_in l : consistent l ->
  sorted_from 0 (fold_left assign l []) /\ forall q, In q (fold_left assign l []) <-> In q l.
Proof.
  induction l as [|p l IH] using rev_ind; intros C.
  - cbn. split; [exact I|tauto].
  - rewrite fold_left_app. cbn [fold_left]. destruct IH as [S1 S2].
    { intros x y Hx Hy. apply C; apply in_or_app; auto. }
    split; [apply assign_sorted; [exact S1|lia]|]. intros q. rewrite (assign_in _ p q 0 S1), S2, in_app_iff. cbn [In].
    split; [intros [->|[H _]]; auto|]. intros [H|[->|[]]]; auto.
    destruct (Nat.eq_dec (key q) (key p)) as [E|E]; [|auto]. left. apply C; [apply in_or_app; auto|apply in_or_app; cbn; auto|exact E].
Qed.

Lemma sorted_nodup m : forall b, sorted_from b m -> NoDup m.
Proof.
  induction m as [|p r IH]; intros b H; constructor; cbn in H; destruct H as [A B].
  - intros I. pose proof (sorted_below _ _ B _ I). lia.
  - exact (IH _ B).
Qed.

(** The points assigned one after the other. *)
Definition candidate (M : mesh) (r : nat) (f : level_set) (d : nat * position) : list interior_point :=
  let '(g, x) := d in
  if (selects_interior f x && negb (Nat.eqb (row_length M r (to_local M r g)) 1) && negb (Nat.leb (n_owned M r) (to_local M r g)))%bool
  then [(to_local M r g, mass M r (to_local M r g), x)] else [].

Definition visited (M : mesh) (r : nat) : list (nat * position) :=
  flat_map (fun c => if Nat.eqb (cell_owner c) r then cell_dofs c else []) (cells M).

Lemma interior_map_fold M r f : interior_map M r f = fold_left assign (flat_map (candidate M r f) (visited M r)) [].
Proof.
  unfold interior_map, visited. generalize (@nil interior_point) as m. induction (cells M) as [|c l IH]; intros m; [reflexivity|].
  cbn [fold_left flat_map]. rewrite flat_map_app, fold_left_app, IH. f_equal.
  destruct (Nat.eqb (cell_owner c) r); [|reflexivity].
  revert m. induction (cell_dofs c) as [|[g x] ds IHd]; intros m; [reflexivity|]. cbn [fold_left flat_map].
  rewrite fold_left_app, <- IHd. f_equal. unfold visit_dof, candidate. destruct (selects_interior f x); [|reflexivity]. cbn [negb andb].
  destruct (Nat.eqb _ 1); [reflexivity|]. destruct (Nat.leb _ _); reflexivity.
Qed.

Lemma interior_map_in ranks G M owner r f : distributes ranks G M owner ->
  NoDup (interior_map M r f) /\
  forall p, In p (interior_map M r f) <->
    exists g, occurs G g /\ owner g = r /\ free G g /\ selects_interior f (pos G g) = true /\ p = (to_local M r g, gmass G g, pos G g).
Proof.
  intros (D1 & D2 & D3 & D4 & D5 & D6).
  assert (CH : forall p, In p (flat_map (candidate M r f) (visited M r)) <->
    exists g, occurs G g /\ owner g = r /\ free G g /\ selects_interior f (pos G g) = true /\ p = (to_local M r g, gmass G g, pos G g)).
  { intros p. rewrite in_flat_map. split.
    - intros ([g x] & V & C). unfold visited in V. apply in_flat_map in V. destruct V as (c & Hc & V).
      destruct (Nat.eqb_spec (cell_owner c) r) as [E|]; [|destruct V]. destruct (D1 c g x Hc V) as [O ->]. cbn in C.
      destruct (selects_interior f (pos G g)) eqn:S1; [|destruct C]. destruct (Nat.eqb_spec (row_length M r (to_local M r g)) 1) as [|S2]; [destruct C|].
      destruct (Nat.leb_spec (n_owned M r) (to_local M r g)) as [|S3]; [destruct C|]. cbn in C. destruct C as [<-|[]].
      assert (W : r = owner g) by (apply (D3 g r O); exact S3). exists g. split; [exact O|]. split; [auto|].
      split; [apply (D5 g O); rewrite <- W; exact S2|]. split; [exact S1|]. rewrite <- (D6 g O), <- W. reflexivity.
    - intros (g & O & W & Fr & S1 & ->). destruct (D2 g O) as (_ & c & x & Hc & Oc & Hx). exists (g, x). split.
      + apply in_flat_map. exists c. split; [exact Hc|]. rewrite Oc, W, Nat.eqb_refl. exact Hx.
      + destruct (D1 c g x Hc Hx) as [_ ->]. cbn. rewrite S1. subst r.
        destruct (Nat.eqb_spec (row_length M (owner g) (to_local M (owner g) g)) 1) as [E|_]; [exfalso; apply (D5 g O) in Fr; contradiction|].
        assert (L : (to_local M (owner g) g < n_owned M (owner g))%nat) by (apply (D3 g (owner g) O); reflexivity).
        destruct (Nat.leb_spec (n_owned M (owner g)) (to_local M (owner g) g)); [lia|]. cbn. left. rewrite D6 by exact O. reflexivity. }
  assert (CO : consistent (flat_map (candidate M r f) (visited M r))).
  { intros p q Hp Hq E. apply CH in Hp, Hq. destruct Hp as (g & Og & Wg & _ & _ & ->). destruct Hq as (h & Oh & Wh & _ & _ & ->).
    cbn in E. assert (g = h); [|subst; reflexivity]. apply D4; try assumption; [congruence|]. rewrite Wg, Wh. exact E. }
  rewrite interior_map_fold. destruct (fold_assign_in _ CO) as [S1 S2]. split; [eapply sorted_nodup; exact S1|].
  intros p. rewrite S2. apply CH.
Qed.

Lemma nodup_flat_map {A B} (h : A -> list B) l : NoDup l -> (forall a, In a l -> NoDup (h a)) ->
  (forall a b x, In a l -> In b l -> In x (h a) -> In x (h b) -> a = b) -> NoDup (flat_map h l).
Proof.
  induction l as [|a l IH]; intros N H D; [constructor|]. cbn. inversion N as [|? ? N1 N2]; subst.
  assert (NL : NoDup (flat_map h l)).
  { apply IH; [exact N2|intros b Hb; apply H; right; exact Hb|intros b c x Hb Hc; apply D; right; assumption]. }
  assert (Na : NoDup (h a)) by (apply H; left; reflexivity).
  assert (X : forall x, In x (h a) -> ~ In x (flat_map h l)).
  { intros x Hx Hf. apply in_flat_map in Hf. destruct Hf as (b & Hb & Hx'). assert (a = b) by (apply (D a b x); cbn; auto). subst. contradiction. }
  revert Na X. generalize (h a) as u. induction u as [|y u IHu]; intros Na X; [exact NL|]. cbn. inversion Na as [|? ? A1 A2]; subst. constructor.
  - intros I. apply in_app_or in I. destruct I as [I|I]; [contradiction|]. apply (X y); [left; reflexivity|exact I].
  - apply IHu; [exact A2|]. intros x Hx. apply X. right. exact Hx.
Qed.

Lemma C157_interior_proof ranks G M owner f selected : distributes ranks G M owner -> NoDup selected ->
  (forall g, occurs G g -> f (pos G g) <> None) ->
  (forall g, In g selected <-> occurs G g /\ free G g /\ exists v, f (pos G g) = Some v /\ Rabs v <= 1 / 10 ^ 12) ->
  Permutation (all_points ranks M f) (map (fun g => (gmass G g, pos G g)) selected).
Proof.
  intros D N DEF SEL.
  set (h := fun r => map (fun g => (r, (to_local M r g, gmass G g, pos G g))) (filter (fun g => Nat.eqb (owner g) r) selected)).
  assert (SI : forall g, occurs G g -> (selects_interior f (pos G g) = true <-> exists v, f (pos G g) = Some v /\ Rabs v <= 1 / 10 ^ 12)).
  { intros g O. unfold selects_interior. specialize (DEF g O). destruct (f (pos G g)) as [v|]; [|congruence].
    destruct (Rlt_dec (1 / 10 ^ 12) (Rabs v)) as [L|L].
    - split; [discriminate|]. intros (w & E & B). injection E as <-. lra.
    - split; [|auto]. intros _. exists v. split; [reflexivity|lra]. }
  assert (LOC : forall r, (r < ranks)%nat ->
     Permutation (interior_map M r f) (map (fun g => (to_local M r g, gmass G g, pos G g)) (filter (fun g => Nat.eqb (owner g) r) selected))).
  { intros r Hr. destruct (interior_map_in ranks G M owner r f D) as [N1 I1]. apply NoDup_Permutation; [exact N1| |].
    - destruct D as (_ & _ & _ & D4 & _).
      assert (NF : NoDup (filter (fun g => Nat.eqb (owner g) r) selected)) by (apply NoDup_filter; exact N).
      assert (INJ : forall g k, In g (filter (fun g => Nat.eqb (owner g) r) selected) -> In k (filter (fun g => Nat.eqb (owner g) r) selected) ->
        to_local M r g = to_local M r k -> g = k).
      { intros g k Hg Hk E. apply filter_In in Hg, Hk. destruct Hg as [Hg Wg]. destruct Hk as [Hk Wk]. apply Nat.eqb_eq in Wg, Wk.
        apply SEL in Hg, Hk. apply D4; [tauto|tauto|congruence|]. rewrite Wg, Wk. exact E. }
      revert NF INJ. generalize (filter (fun g => Nat.eqb (owner g) r) selected) as l. induction l as [|g l IH]; intros NF INJ; [constructor|].
      cbn. inversion NF as [|? ? A1 A2]; subst. constructor.
      + intros I. apply in_map_iff in I. destruct I as (k & E & Hk). injection E as E _ _. apply A1.
        rewrite (INJ g k); [exact Hk|left; reflexivity|right; exact Hk|auto].
      + apply IH; [exact A2|]. intros x y Hx Hy. apply INJ; right; assumption.
    - intros p. rewrite I1, in_map_iff. split.
      + intros (g & O & W & Fr & S1 & ->). exists g. split; [reflexivity|]. apply filter_In. split; [|apply Nat.eqb_eq; exact W].
        apply SEL. split; [exact O|]. split; [exact Fr|]. apply (SI g O). exact S1.
      + intros (g & <- & I). apply filter_In in I. destruct I as [I W]. apply Nat.eqb_eq in W. apply SEL in I. destruct I as (O & Fr & S1).
        exists g. repeat split; try assumption. apply (SI g O). exact S1. }
  assert (STEP : Permutation (all_points ranks M f)
     (flat_map (fun r => map (fun g => (gmass G g, pos G g)) (filter (fun g => Nat.eqb (owner g) r) selected)) (seq 0 ranks))).
  { unfold all_points. assert (LE : forall r, In r (seq 0 ranks) -> (r < ranks)%nat) by (intros r I; apply in_seq in I; lia).
    revert LE. generalize (seq 0 ranks) as rs. induction rs as [|r rs IH]; intros LE; [constructor|]. cbn. apply Permutation_app.
    - apply Permutation_trans with (map (fun p => (snd (fst p), snd p)) (map (fun g => (to_local M r g, gmass G g, pos G g)) (filter (fun g => Nat.eqb (owner g) r) selected))).
      + apply Permutation_map, LOC, LE. left. reflexivity.
      + rewrite map_map. apply Permutation_refl.
    - apply IH. intros x Hx. apply LE. right. exact Hx. }
  eapply Permutation_trans; [exact STEP|].
  assert (OWN : forall g, In g selected -> (owner g < ranks)%nat).
  { intros g I. apply SEL in I. destruct D as (_ & D2 & _). apply D2. tauto. }
  clear -OWN.
  replace (flat_map (fun r => map (fun g => (gmass G g, pos G g)) (filter (fun g => Nat.eqb (owner g) r) selected)) (seq 0 ranks))
    with (map (fun g => (gmass G g, pos G g)) (flat_map (fun r => filter (fun g => Nat.eqb (owner g) r) selected) (seq 0 ranks))).
  2: { induction (seq 0 ranks) as [|r rs IH]; [reflexivity|]. cbn. rewrite map_app, IH. reflexivity. }
  apply Permutation_map.
  (* partition of a list by the owner *)
  assert (P : forall k b (l : list nat), (forall g, In g l -> b <= owner g < b + k)%nat ->
     Permutation (flat_map (fun r => filter (fun g => Nat.eqb (owner g) r) l) (seq b k)) l).
  { induction k as [|k IH]; intros b l H.
    - destruct l as [|g l]; [constructor|]. specialize (H g (or_introl eq_refl)). lia.
    - cbn. eapply Permutation_trans; [apply Permutation_app_head|].
      + assert (E : flat_map (fun r => filter (fun g => Nat.eqb (owner g) r) l) (seq (S b) k)
                  = flat_map (fun r => filter (fun g => Nat.eqb (owner g) r) (filter (fun g => negb (Nat.eqb (owner g) b)) l)) (seq (S b) k)).
        { assert (LE : forall r, In r (seq (S b) k) -> (b < r)%nat) by (intros r I; apply in_seq in I; lia).
          revert LE. generalize (seq (S b) k) as rs. induction rs as [|r rs IHr]; intros LE; [reflexivity|]. cbn. f_equal.
          - assert (b < r)%nat by (apply LE; left; reflexivity). clear -H0. induction l as [|g l IHl]; [reflexivity|]. cbn.
            destruct (Nat.eqb_spec (owner g) b); cbn; destruct (Nat.eqb_spec (owner g) r); try lia; rewrite IHl; reflexivity.
          - apply IHr. intros x Hx. apply LE. right. exact Hx. }
        rewrite E. apply IH. intros g I. apply filter_In in I. destruct I as [I W]. apply negb_true_iff, Nat.eqb_neq in W.
        specialize (H g I). lia.
      + clear. induction l as [|g l IH]; [constructor|]. cbn. destruct (Nat.eqb (owner g) b); cbn.
        * constructor. exact IH.
        * apply Permutation_sym. apply Permutation_cons_app. apply Permutation_sym. exact IH. }
  apply P. intros g I. specialize (OWN g I). lia.
Qed.

Lemma C157_boundary_proof M r f :
  (exists keep, boundary_points M r f = filter keep (boundary_map M r)) /\
  forall i d x, In (i, d, x) (boundary_points M r f) <->
    In (i, d, x) (boundary_map M r) /\ (i < n_owned M r)%nat /\ constrained M r i = false /\
    exists v, f x = Some v /\ Rabs v < 1 / 10 ^ 12.
Proof.
  split; [eexists; reflexivity|]. intros i d x. unfold boundary_points. rewrite filter_In, !andb_true_iff, !negb_true_iff.
  rewrite Nat.leb_gt. unfold selects_boundary. split.
  - intros (A & (B & C) & D). repeat (split; [assumption|]). destruct (f x) as [v|]; [|discriminate].
    destruct (Rlt_dec (Rabs v) (1 / 10 ^ 12)); [|discriminate]. exists v. auto.
  - intros (A & B & C & v & D & E). split; [exact A|]. split; [split; assumption|]. rewrite D.
    destruct (Rlt_dec (Rabs v) (1 / 10 ^ 12)); [reflexivity|contradiction].
Qed.

(** ** Files *)
Lemma name_eqb_eq a b : name_eqb a b = true <-> a = b.
Proof.
  destruct a as [[a1 a2] a3], b as [[b1 b2] b3]. unfold name_eqb. cbn. rewrite !andb_true_iff, String.eqb_eq, Nat.eqb_eq.
  split; [intros [[-> ->] K]; destruct a3, b3; try discriminate; reflexivity|intros E; injection E as -> -> ->; destruct b3; auto].
Qed.

Lemma stored_from e n : forall acc : option (list (list (list R))),
  fold_left (fun acc f => if name_eqb (fst f) n then Some (snd f) else acc) e acc = match stored e n with Some c => Some c | None => acc end.
Proof.
  unfold stored. induction e as [|f e IH] using rev_ind; intros acc; [reflexivity|]. rewrite !fold_left_app. cbn.
  destruct (name_eqb (fst f) n); [reflexivity|apply IH].
Qed.

Lemma stored_app d e n : stored (d ++ e) n = match stored e n with Some c => Some c | None => stored d n end.
Proof. unfold stored at 1. rewrite fold_left_app. apply stored_from. Qed.

Lemma stored_none e n : (forall f, In f e -> fst f <> n) -> stored e n = None.
Proof.
  induction e as [|f e IH] using rev_ind; intros H; [reflexivity|]. rewrite stored_app, IH.
  - unfold stored. cbn. destruct (name_eqb (fst f) n) eqn:E; [|reflexivity]. exfalso. apply name_eqb_eq in E.
    apply (H f); [apply in_or_app; right; left; reflexivity|exact E].
  - intros g Hg. apply H, in_or_app. left. exact Hg.
Qed.

Lemma stored_in e n c : NoDup (map fst e) -> In (n, c) e -> stored e n = Some c.
Proof.
  induction e as [|f e IH]; intros N I; [destruct I|]. change (f :: e) with ([f] ++ e)%list. rewrite stored_app.
  cbn in N. inversion N as [|? ? N1 N2]; subst. destruct I as [->|I].
  - rewrite stored_none.
    + unfold stored. cbn. replace (name_eqb n n) with true; [reflexivity|]. symmetry. apply name_eqb_eq. reflexivity.
    + intros f Hf E. apply N1. cbn. rewrite <- E. apply in_map. exact Hf.
  - rewrite (IH N2 I). reflexivity.
Qed.

Lemma stored_some e n c : stored e n = Some c -> In (n, c) e.
Proof.
  induction e as [|f e IH] using rev_ind; intros H; [discriminate|]. rewrite stored_app in H. apply in_or_app.
  unfold stored at 1 in H. cbn in H. destruct (name_eqb (fst f) n) eqn:E; [|left; apply IH; exact H].
  injection H as <-. apply name_eqb_eq in E. right. left. destruct f. cbn in *. subst. reflexivity.
Qed.

(** What one call of write_out() adds. *)
Definition points_of (k : nat) (p : maps) : list file := (mesh_files k (interior p) ++ mesh_files k (boundary p))%list.
Definition values_of (k : nat) (U : nat -> nat -> list R) (p : maps) : list file :=
  (value_files k U (interior p) ++ value_files k U (boundary p))%list.

Lemma mesh_files_app k a b : mesh_files k (a ++ b) = (mesh_files k a ++ mesh_files k b)%list.
Proof. unfold mesh_files. rewrite filter_app, map_app. reflexivity. Qed.
Lemma value_files_app k U a b : value_files k U (a ++ b) = (value_files k U a ++ value_files k U b)%list.
Proof. unfold value_files. rewrite filter_app, map_app. reflexivity. Qed.

Lemma mesh_in k l f : In f (mesh_files k l) <-> exists m ps, In (m, ps) l /\ (m_instantaneous m || m_time_averaged m)%bool = true /\
   f = ((m_name m, k, Points), map (map snd) ps).
Proof.
  unfold mesh_files. rewrite in_map_iff. split.
  - intros ([m ps] & <- & I). apply filter_In in I. exists m, ps. tauto.
  - intros (m & ps & I & B & ->). exists (m, ps). split; [reflexivity|]. apply filter_In. auto.
Qed.

Lemma value_in k U l f : In f (value_files k U l) <-> exists m ps, In (m, ps) l /\ m_instantaneous m = true /\
   f = ((m_name m, k, Instantaneous), map (fun rp => map (fun p => U (fst rp) (fst p)) (snd rp)) (combine (seq 0 (length ps)) ps)).
Proof.
  unfold value_files. rewrite in_map_iff. split.
  - intros ([m ps] & <- & I). apply filter_In in I. exists m, ps. tauto.
  - intros (m & ps & I & B & ->). exists (m, ps). split; [reflexivity|]. apply filter_In. auto.
Qed.

Lemma files_nodup {B : Type} (h : manifold * point_lists -> file) (sel : manifold * point_lists -> bool) (mk : string -> file_name) l :
  (forall a b, mk a = mk b -> a = b) -> (forall e, fst (h e) = mk (m_name (fst e))) ->
  NoDup (map (fun e => m_name (fst e)) l) -> NoDup (map fst (map h (filter sel l))).
Proof.
  intros INJ F. induction l as [|e l IH]; intros N; [constructor|]. cbn in N. inversion N as [|? ? N1 N2]; subst. cbn.
  destruct (sel e); [|apply IH; exact N2]. cbn. constructor; [|apply IH; exact N2]. rewrite F. intros I.
  rewrite map_map in I. apply in_map_iff in I. destruct I as (e2 & E & I). rewrite F in E. apply INJ in E. apply filter_In in I. destruct I as [I _].
  apply N1. rewrite <- E. apply in_map_iff. exists e2. auto.
Qed.

Lemma points_nodup k p : distinct_names p -> NoDup (map fst (points_of k p)).
Proof.
  intros N. unfold points_of. rewrite <- mesh_files_app. unfold mesh_files.
  apply (@files_nodup unit _ _ (fun s => (s, k, Points))); [intros a b E; congruence|reflexivity|exact N].
Qed.
Lemma values_nodup k U p : distinct_names p -> NoDup (map fst (values_of k U p)).
Proof.
  intros N. unfold values_of. rewrite <- value_files_app. unfold value_files.
  apply (@files_nodup unit _ _ (fun s => (s, k, Instantaneous))); [intros a b E; congruence|reflexivity|exact N].
Qed.

(** Where the cycles of the written files lie. *)
Definition bounded (last : option nat) (d : list file) : Prop :=
  forall f, In f d -> match last with Some j => (snd (fst (fst f)) <= j)%nat | None => False end.

Definition after (e : event) (last : option nat) : option nat := match e with Prepare _ => last | WriteOut k _ => Some k end.

Lemma points_cycle k p f : In f (points_of k p) -> snd (fst (fst f)) = k /\ snd (fst f) = Points.
Proof. unfold points_of. rewrite <- mesh_files_app. intros I. apply mesh_in in I. destruct I as (m & ps & _ & _ & ->). auto. Qed.
Lemma values_cycle k U p f : In f (values_of k U p) -> snd (fst (fst f)) = k /\ snd (fst f) = Instantaneous.
Proof. unfold values_of. rewrite <- value_files_app. intros I. apply value_in in I. destruct I as (m & ps & _ & _ & ->). auto. Qed.

Definition new_files (s : qstate) (e : event) : list file :=
  match e with Prepare _ => [] | WriteOut k U => ((if written s then [] else points_of k (current s)) ++ values_of k U (current s))%list end.

Lemma perform_disk s e : disk (perform s e) = (disk s ++ new_files s e)%list.
Proof. destruct e as [p|k U]; cbn; [rewrite app_nil_r; reflexivity|]. reflexivity. Qed.

Lemma new_cycle s k U f : In f (new_files s (WriteOut k U)) -> snd (fst (fst f)) = k.
Proof.
  cbn. rewrite in_app_iff. intros [I|I]; [destruct (written s); [destruct I|]; apply points_cycle in I; tauto|apply values_cycle in I; tauto].
Qed.

(** ** The invariant *)
Definition listed (d : list file) (j : nat) (p : maps) : Prop :=
  forall m ps, In (m, ps) (interior p ++ boundary p) -> (m_instantaneous m || m_time_averaged m)%bool = true ->
    exists c, (c <= j)%nat /\ stored d (m_name m, c, Points) = Some (map (map snd) ps) /\
      forall c', (c < c' <= j)%nat -> stored d (m_name m, c', Points) = None.

Definition good (last : option nat) (s : qstate) : Prop :=
  bounded last (disk s) /\
  (distinct_names (current s) -> written s = true -> match last with Some j => listed (disk s) j (current s) | None => False end).

Lemma stored_unbounded last d n : bounded last d -> match last with Some j => (j < snd (fst n))%nat | None => True end -> stored d n = None.
Proof.
  intros B L. apply stored_none. intros f If E. specialize (B f If). subst n. destruct last; [lia|exact B].
Qed.

Lemma good_step last s e : good last s -> increasing last [e] -> good (after e last) (perform s e).
Proof.
  intros [B L] I. split.
  - rewrite perform_disk. destruct e as [p|k U]; [cbn; rewrite app_nil_r; exact B|]. cbn [after]. intros f If.
    apply in_app_or in If. destruct If as [If|If].
    + specialize (B f If). cbn in I. destruct I as [I _]. destruct last; [lia|destruct B].
    + apply new_cycle in If. lia.
  - destruct e as [p|k U]; cbn [after]; [cbn; intros; discriminate|]. intros DN _. rewrite perform_disk. cbn [current perform] in DN |- *.
    cbn in I. destruct I as [I _].
    intros m ps Im Bm. destruct (written s) eqn:W.
    + assert (exists j, last = Some j) as [j EJ]; [destruct last as [j|]; [eauto|destruct (L DN eq_refl)]|]. subst last.
      destruct (L DN eq_refl m ps Im Bm) as (c & Lc & Sc & Nc).
      exists c. split; [lia|].
      assert (NP : forall c', stored (new_files s (WriteOut k U)) (m_name m, c', Points) = None).
      { intros c'. apply stored_none. cbn. rewrite W. cbn. intros f If E. apply values_cycle in If. rewrite E in If. destruct If. discriminate. }
      split; [rewrite stored_app, NP; exact Sc|]. intros c' Hc. rewrite stored_app, NP.
      destruct (Nat.le_gt_cases c' j) as [Q|Q]; [apply Nc; lia|]. apply (stored_unbounded (Some j)); [exact B|exact Q].
    + exists k. split; [lia|]. split; [|intros c' Hc; lia]. rewrite stored_app. cbn [new_files]. rewrite W.
      rewrite stored_app, (stored_none (values_of k U (current s))).
      2: { intros f If E. apply values_cycle in If. rewrite E in If. destruct If. discriminate. }
      rewrite (stored_in _ _ (map (map snd) ps)); [reflexivity|apply points_nodup; exact DN|].
      unfold points_of. rewrite <- mesh_files_app. apply mesh_in. exists m, ps. auto.
Qed.

Fixpoint last_cycle (l : list event) (acc : option nat) : option nat :=
  match l with [] => acc | e :: r => last_cycle r (after e acc) end.

Lemma increasing_app a b last : increasing last (a ++ b) <-> increasing last a /\ increasing (last_cycle a last) b.
Proof.
  revert last. induction a as [|[p|k U] a IH]; intros last; cbn; [tauto|apply IH|]. rewrite IH. tauto.
Qed.

Lemma good_run l : forall last s, good last s -> increasing last l -> good (last_cycle l last) (fold_left perform l s).
Proof.
  induction l as [|e l IH]; intros last s G I; [exact G|]. change (e :: l) with ([e] ++ l)%list in I. apply increasing_app in I. destruct I as [I1 I2].
  cbn. apply IH; [apply good_step; assumption|exact I2].
Qed.

Lemma good0 : good None qstate0.
Proof. split; [intros f []|intros _ H; discriminate]. Qed.

Lemma current_run l : forall s, current (fold_left perform l s) = last_maps l (current s).
Proof. induction l as [|[p|k U] l IH]; intros s; [reflexivity|apply IH|apply IH]. Qed.

(** Later calls do not touch files of earlier cycles. *)
Lemma later_files l : forall j s n, increasing (Some j) l -> (snd (fst n) <= j)%nat -> stored (disk (fold_left perform l s)) n = stored (disk s) n.
Proof.
  induction l as [|e l IH]; intros j s n I L; [reflexivity|]. cbn [fold_left]. destruct e as [p|k U].
  - cbn in I. rewrite (IH j _ n I L). reflexivity.
  - cbn in I. destruct I as [I1 I2]. rewrite (IH k _ n I2); [|lia]. rewrite perform_disk, stored_app.
    rewrite (stored_none (new_files s (WriteOut k U))); [reflexivity|]. intros f If E. apply new_cycle in If. rewrite E in If. lia.
Qed.

Lemma C157_lines_proof pre k U post m ps :
  increasing None (pre ++ WriteOut k U :: post) ->
  distinct_names (last_maps pre (current qstate0)) ->
  In (m, ps) (interior (last_maps pre (current qstate0)) ++ boundary (last_maps pre (current qstate0))) ->
  m_instantaneous m = true ->
  let d := disk (run (pre ++ WriteOut k U :: post)) in
  (exists values, stored d (m_name m, k, Instantaneous) = Some values /\ length values = length ps /\
     forall r points, nth_error ps r = Some points -> nth_error values r = Some (map (fun p => U r (fst p)) points)) /\
  exists c, (c <= k)%nat /\ stored d (m_name m, c, Points) = Some (map (map snd) ps) /\
    forall c', (c < c' <= k)%nat -> stored d (m_name m, c', Points) = None.
Proof.
  intros I DN Im Bm d. subst d. unfold run. rewrite fold_left_app. cbn [fold_left].
  set (s := fold_left perform pre qstate0). apply increasing_app in I. destruct I as [I1 I2]. cbn in I2. destruct I2 as [I2 I3].
  assert (CU : current s = last_maps pre (current qstate0)) by apply current_run. rewrite <- CU in DN, Im.
  assert (G : good (last_cycle pre None) s) by (apply good_run; [apply good0|exact I1]).
  assert (G2 : good (Some k) (perform s (WriteOut k U))).
  { apply (good_step (last_cycle pre None) s (WriteOut k U) G). cbn. auto. }
  split.
  - rewrite (later_files post k); [|exact I3|cbn; lia]. rewrite perform_disk, stored_app. cbn [new_files]. rewrite stored_app.
    rewrite (stored_in (values_of k U (current s)) _ (map (fun rp => map (fun p => U (fst rp) (fst p)) (snd rp)) (combine (seq 0 (length ps)) ps))).
    + eexists. split; [reflexivity|]. split; [rewrite map_length, combine_length, seq_length; apply Nat.min_id|].
      intros r points E.
      assert (Q : nth_error (combine (seq 0 (length ps)) ps) r = Some (r, points)).
      { assert (LR : (r < length ps)%nat) by (apply nth_error_Some; congruence).
        apply nth_error_nth with (d := []) in E.
        rewrite (nth_error_nth' _ (0%nat, @nil (nat * list R))); [|rewrite combine_length, seq_length; lia].
        rewrite combine_nth by apply seq_length. rewrite seq_nth by exact LR. rewrite E. reflexivity. }
      exact (map_nth_error _ _ _ Q).
    + apply values_nodup. exact DN.
    + unfold values_of. rewrite <- value_files_app. apply value_in. exists m, ps. auto.
  - destruct G2 as [_ L]. specialize (L DN eq_refl). destruct (L m ps Im) as (c & Lc & Sc & Nc); [rewrite Bm; reflexivity|].
    exists c. split; [exact Lc|]. split.
    + rewrite (later_files post k); [exact Sc|exact I3|cbn; lia].
    + intros c' Hc. rewrite (later_files post k); [apply Nc; exact Hc|exact I3|cbn; lia].
Qed.
