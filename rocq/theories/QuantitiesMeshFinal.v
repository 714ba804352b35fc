(** * The points of manifolds: prepared maps, counterexamples, cases *)
From Coq Require Import Reals String List Bool Arith Lia Lra Permutation.
From Verif Require Import QuantitiesMesh QuantitiesMeshSpec QuantitiesMeshProofs.
Import ListNotations.
Local Open Scope R_scope.

Lemma first_of_id l : forall seen, NoDup (map (fun e => m_name (fst e)) l) ->
  (forall e s, In e l -> In s seen -> m_name (fst e) <> s) -> first_of seen l = l.
Proof.
  induction l as [|[m p] l IH]; intros seen N D; [reflexivity|]. cbn. cbn in N. inversion N as [|? ? N1 N2]; subst.
  destruct (existsb (String.eqb (m_name m)) seen) eqn:E.
  - exfalso. apply existsb_exists in E. destruct E as (s & I & Q). apply String.eqb_eq in Q. apply (D (m, p) s); cbn; auto.
  - f_equal. apply IH; [exact N2|]. intros e s Ie [<-|Is].
    + intros Q. apply N1. rewrite <- Q. apply in_map_iff. exists e. auto.
    + apply D; [right; exact Ie|exact Is].
Qed.

Lemma nodup_app_l {A} (a b : list A) : NoDup (a ++ b) -> NoDup a /\ NoDup b.
Proof.
  induction a as [|x a IH]; cbn; intros H; [split; [constructor|exact H]|]. inversion H as [|? ? H1 H2]; subst. destruct (IH H2) as [Na Nb].
  split; [constructor; [intros I; apply H1, in_or_app; left; exact I|exact Na]|exact Nb].
Qed.

Definition interior_entry (ranks : nat) (M : mesh) (m : manifold) : manifold * point_lists :=
  (m, map (fun r => map (fun p => (fst (fst p), snd p ++ [snd (fst p)])%list) (interior_map M r (m_level m))) (seq 0 ranks)).
Definition boundary_entry (ranks : nat) (M : mesh) (m : manifold) : manifold * point_lists :=
  (m, map (fun r => map (fun e => (fst (fst e), snd e ++ snd (fst e))%list) (boundary_points M r (m_level m))) (seq 0 ranks)).

Lemma prepare_eq ranks M im bm : NoDup (map m_name (im ++ bm)) ->
  interior (prepare ranks M im bm) = map (interior_entry ranks M) im /\ boundary (prepare ranks M im bm) = map (boundary_entry ranks M) bm.
Proof.
  intros N. rewrite map_app in N. apply nodup_app_l in N. destruct N as [N1 N2]. unfold prepare. cbn. split; apply first_of_id; try (intros ? ? _ []).
  - rewrite map_map. cbn. exact N1.
  - rewrite map_map. cbn. exact N2.
Qed.

Lemma C157_prepare_proof ranks G M owner im bm m selected : distributes ranks G M owner ->
  NoDup (map m_name (im ++ bm)) -> In m im -> NoDup selected ->
  (forall g, occurs G g -> m_level m (pos G g) <> None) ->
  (forall g, In g selected <-> occurs G g /\ free G g /\ exists v, m_level m (pos G g) = Some v /\ Rabs v <= 1 / 10 ^ 12) ->
  distinct_names (prepare ranks M im bm) /\
  exists ps, In (m, ps) (interior (prepare ranks M im bm)) /\ length ps = ranks /\
    Permutation (concat (map (map snd) ps)) (map (fun g => pos G g ++ [gmass G g])%list selected).
Proof.
  intros D N Im Ns DEF SEL. destruct (prepare_eq ranks M im bm N) as [E1 E2]. split.
  - unfold distinct_names. rewrite E1, E2, map_app, !map_map. cbn. rewrite <- map_app. exact N.
  - exists (snd (interior_entry ranks M m)). split; [rewrite E1; apply in_map_iff; exists m; auto|]. split; [cbn; rewrite map_length, seq_length; reflexivity|].
    pose proof (C157_interior_proof ranks G M owner (m_level m) selected D Ns DEF SEL) as P.
    apply (Permutation_map (fun q : R * position => (snd q ++ [fst q])%list)) in P. rewrite map_map in P. cbn [fst snd] in P.
    eapply Permutation_trans; [|exact P]. unfold all_points. cbn [interior_entry snd]. rewrite map_map.
    clear. induction (seq 0 ranks) as [|r rs IH]; [constructor|]. cbn [map concat flat_map]. rewrite map_app. apply Permutation_app; [|exact IH].
    rewrite !map_map. apply Permutation_refl.
Qed.

Lemma C157_prepare_boundary_proof ranks M im bm m : NoDup (map m_name (im ++ bm)) -> In m bm ->
  exists ps, In (m, ps) (boundary (prepare ranks M im bm)) /\ length ps = ranks /\
    forall r, (r < ranks)%nat ->
      nth_error ps r = Some (map (fun e => (fst (fst e), snd e ++ snd (fst e))%list) (boundary_points M r (m_level m))).
Proof.
  intros N Im. destruct (prepare_eq ranks M im bm N) as [_ E2]. exists (snd (boundary_entry ranks M m)).
  split; [rewrite E2; apply in_map_iff; exists m; auto|]. split; [cbn; rewrite map_length, seq_length; reflexivity|].
  intros r Hr. cbn [boundary_entry snd]. refine (map_nth_error _ _ _ _).
  rewrite (nth_error_nth' _ 0%nat) by (rewrite seq_length; exact Hr). rewrite seq_nth by exact Hr. reflexivity.
Qed.

Lemma first_of_in l1 m p l2 : forall seen, (forall e, In e l1 -> m_name (fst e) <> m_name m) -> ~ In (m_name m) seen ->
  In (m, p) (first_of seen (l1 ++ (m, p) :: l2)).
Proof.
  induction l1 as [|[a q] l1 IH]; intros seen N S; cbn.
  - destruct (existsb (String.eqb (m_name m)) seen) eqn:E; [|left; reflexivity]. exfalso. apply S.
    apply existsb_exists in E. destruct E as (s & I & Q). apply String.eqb_eq in Q. subst. exact I.
  - assert (Na : m_name a <> m_name m) by (apply (N (a, q)); left; reflexivity).
    destruct (existsb (String.eqb (m_name a)) seen); [|right]; apply IH; try (intros e Ie; apply N; right; exact Ie); [exact S|].
    intros [E|I]; [contradiction|exact (S I)].
Qed.

Lemma first_of_names l : forall seen, NoDup (map (fun e => m_name (fst e)) (first_of seen l)) /\
  forall s, In s seen -> ~ In s (map (fun e => m_name (fst e)) (first_of seen l)).
Proof.
  induction l as [|[m p] l IH]; intros seen; cbn; [split; [constructor|intros s _ []]|].
  destruct (existsb (String.eqb (m_name m)) seen) eqn:E; [apply IH|]. destruct (IH (m_name m :: seen)) as [N D]. split.
  - cbn. constructor; [apply D; left; reflexivity|exact N].
  - intros s I [Q|Q]; [|apply (D s); [right; exact I|exact Q]]. cbn in Q.
    assert (T : existsb (String.eqb (m_name m)) seen = true); [|congruence]. apply existsb_exists. exists s. split; [exact I|]. apply String.eqb_eq. exact Q.
Qed.

Lemma C157_first_proof ranks M im bm l1 m l2 : im = (l1 ++ m :: l2)%list -> (forall x, In x l1 -> m_name x <> m_name m) ->
  NoDup (map (fun e => m_name (fst e)) (interior (prepare ranks M im bm))) /\
  exists ps, In (m, ps) (interior (prepare ranks M im bm)) /\ length ps = ranks /\
    forall r, (r < ranks)%nat ->
      nth_error ps r = Some (map (fun p => (fst (fst p), snd p ++ [snd (fst p)])%list) (interior_map M r (m_level m))).
Proof.
  intros -> N. unfold prepare. cbn [interior]. fold (interior_entry ranks M). split; [apply first_of_names|].
  exists (snd (interior_entry ranks M m)). split; [|split].
  - rewrite map_app. cbn [map]. apply first_of_in; [|intros []]. intros e I. apply in_map_iff in I. destruct I as (x & <- & I). apply N. exact I.
  - cbn. rewrite map_length, seq_length. reflexivity.
  - intros r Hr. cbn [interior_entry snd]. refine (map_nth_error _ _ _ _).
    rewrite (nth_error_nth' _ 0%nat) by (rewrite seq_length; exact Hr). rewrite seq_nth by exact Hr. reflexivity.
Qed.

(** ** A mesh of two cells on two ranks *)
Definition two_cells : mesh :=
  {| cells := [{| cell_owner := 0; cell_dofs := [(0%nat, [0]); (1%nat, [1])] |}; {| cell_owner := 1; cell_dofs := [(1%nat, [1]); (2%nat, [2])] |}];
     to_local := fun r g => if Nat.eqb r 0 then g else if Nat.eqb g 2 then 0%nat else if Nat.eqb r 1 then 1%nat else 5%nat;
     n_owned := fun r => if Nat.eqb r 0 then 2%nat else if Nat.eqb r 1 then 1%nat else 0%nat;
     row_length := fun _ _ => 3%nat; mass := fun r i => if Nat.eqb r 1 then 1 / 2 else if Nat.eqb i 1 then 1 else 1 / 2;
     boundary_map := fun r => if Nat.eqb r 0 then [(0%nat, [-(1)], [0])] else [(0%nat, [1], [2])]; constrained := fun _ _ => false |}.
Definition three_dofs : global_mesh :=
  {| occurs := fun g => (g < 3)%nat; pos := fun g => [INR g]; gmass := fun g => if Nat.eqb g 1 then 1 else 1 / 2; free := fun _ => True |}.
Definition two_owner (g : nat) : nat := if Nat.eqb g 2 then 1%nat else 0%nat.

Lemma two_distributes : distributes 2 three_dofs two_cells two_owner.
Proof.
  assert (I1 : [1] = [INR 1]) by (cbn; reflexivity). assert (I2 : [2] = [INR 2]) by (cbn; f_equal; lra).
  repeat split; cbn in *.
  - intuition (subst; cbn in *; intuition (try congruence)); try (match goal with H : (_, _) = _ |- _ => injection H as <- <- end; lia).
  - intuition (subst; cbn in *; intuition (try congruence)); try (match goal with H : (_, _) = _ |- _ => injection H as <- <- end; cbn; f_equal; lra).
  - unfold two_owner. destruct (Nat.eqb g 2); lia.
  - destruct g as [|[|[|g]]]; [| | |lia]; unfold two_owner; cbn.
    + exists {| cell_owner := 0; cell_dofs := [(0%nat, [0]); (1%nat, [1])] |}, [0]. cbn. auto.
    + exists {| cell_owner := 0; cell_dofs := [(0%nat, [0]); (1%nat, [1])] |}, [1]. cbn. auto.
    + exists {| cell_owner := 1; cell_dofs := [(1%nat, [1]); (2%nat, [2])] |}, [2]. cbn. auto.
  - unfold two_owner. destruct g as [|[|[|g]]]; [| | |lia]; cbn; destruct r as [|[|r]]; cbn; lia.
  - intros ->. unfold two_owner. destruct g as [|[|[|g]]]; [| | |lia]; cbn; lia.
  - unfold two_owner. intros g h Hg Hh. destruct g as [|[|[|g]]], h as [|[|[|h]]]; cbn; lia.
  - lia.
  - unfold two_owner. intros g Hg. destruct g as [|[|[|g]]]; [| | |lia]; reflexivity.
Qed.

Definition middle : level_set := fun x => Some (hd 0 x - 1).
Definition middle_manifold : manifold := {| m_name := "middle"; m_level := middle; m_instantaneous := true; m_time_averaged := false |}.
Definition end_manifold : manifold := {| m_name := "end"; m_level := fun x => Some (hd 0 x - 2); m_instantaneous := true; m_time_averaged := true |}.

(** The degree of freedom in the middle lies on cells of both ranks. *)
Lemma middle_case : distributes 2 three_dofs two_cells two_owner /\ NoDup [1%nat] /\
  NoDup (map m_name ([middle_manifold] ++ [end_manifold])) /\
  (forall g, occurs three_dofs g -> middle (pos three_dofs g) <> None) /\
  (forall g, In g [1%nat] <-> occurs three_dofs g /\ free three_dofs g /\ exists v, middle (pos three_dofs g) = Some v /\ Rabs v <= 1 / 10 ^ 12).
Proof.
  split; [exact two_distributes|]. split; [repeat constructor; intros []|]. split.
  { cbn. constructor; [intros [H|[]]; discriminate|]. repeat constructor; intros []. }
  split; [discriminate|]. intros g. cbn [In three_dofs occurs free pos]. unfold middle. cbn [hd]. split.
  - intros [<-|[]]. split; [lia|]. split; [exact I|]. exists (INR 1 - 1). split; [reflexivity|]. cbn [INR]. rewrite Rminus_diag_eq, Rabs_R0 by reflexivity. lra.
  - intros (L & _ & v & E & B). injection E as <-. left. destruct g as [|[|[|g]]]; [| reflexivity | |lia]; exfalso; cbn [INR] in B.
    + rewrite Rabs_left in B by lra. lra.
    + rewrite Rabs_pos_eq in B by lra. lra.
Qed.

Lemma end_case : exists d, boundary_points two_cells 1 (fun x => Some (hd 0 x - 2)) = [(0%nat, d, [2])] /\
  boundary_points two_cells 0 (fun x => Some (hd 0 x - 2)) = [].
Proof.
  exists [1]. unfold boundary_points, selects_boundary. cbn. split.
  - replace (2 - 2) with 0 by lra. rewrite Rabs_R0. destruct (Rlt_dec 0 _) as [_|N]; [reflexivity|]. exfalso. apply N. lra.
  - rewrite Rabs_left by lra. destruct (Rlt_dec _ _) as [L|_]; [exfalso; lra|reflexivity].
Qed.

(** Three outputs, the mesh is adapted after the second. *)
Definition a_map (x : R) : maps := {| interior := [(middle_manifold, [[(1%nat, [x])]; []])]; boundary := [(end_manifold, [[]; [(0%nat, [2])]])] |}.
Definition adapted : list event :=
  [Prepare (a_map 1); WriteOut 0 (fun _ _ => [7]); WriteOut 1 (fun _ _ => [8]); Prepare (a_map 3); WriteOut 2 (fun _ _ => [9])].
Lemma adapted_case :
  let pre := [Prepare (a_map 1); WriteOut 0 (fun _ _ => [7])] in
  let post := [Prepare (a_map 3); WriteOut 2 (fun _ _ => [9])] in
  increasing None (pre ++ WriteOut 1 (fun _ _ => [8]) :: post) /\ distinct_names (last_maps pre (current qstate0)) /\
  In (middle_manifold, [[(1%nat, [1])]; []]) (interior (last_maps pre (current qstate0)) ++ boundary (last_maps pre (current qstate0))) /\
  m_instantaneous middle_manifold = true /\
  stored (disk (run adapted)) ("middle"%string, 1%nat, Instantaneous) = Some [[[8]]; []] /\
  stored (disk (run adapted)) ("middle"%string, 0%nat, Points) = Some [[[1]]; []] /\
  stored (disk (run adapted)) ("middle"%string, 1%nat, Points) = None /\
  stored (disk (run adapted)) ("middle"%string, 2%nat, Points) = Some [[[3]]; []].
Proof.
  cbn zeta. split; [cbn; lia|]. split.
  { unfold distinct_names. cbn. constructor; [intros [H|[]]; discriminate|]. repeat constructor; intros []. }
  split; [left; reflexivity|]. repeat split; reflexivity.
Qed.

(** ** What does not hold *)

(** A formula that is not defined at a point. *)
Lemma C157_nan_refuted_proof : exists ranks G M owner (f : level_set), distributes ranks G M owner /\
  (exists g, occurs G g /\ f (pos G g) = None /\ In (gmass G g, pos G g) (all_points ranks M f)) /\
  (forall r, boundary_points M r f = []) /\ forall x, match f x with Some v => 1 < Rabs v | None => True end.
Proof.
  exists 2%nat, three_dofs, two_cells, two_owner, (fun _ => None). split; [exact two_distributes|]. split; [|split; [|auto]].
  - exists 0%nat. split; [cbn; lia|]. split; [reflexivity|]. unfold all_points. cbn. left. reflexivity.
  - intros r. unfold boundary_points, two_cells. cbn. destruct (Nat.eqb r 0); cbn; rewrite ?andb_false_r; reflexivity.
Qed.

(** An interior and a boundary manifold with the same name. *)
Lemma C157_clash_refuted_proof : exists p k U m ps,
  NoDup (map (fun e => m_name (fst e)) (interior p)) /\ NoDup (map (fun e => m_name (fst e)) (boundary p)) /\
  In (m, ps) (interior p) /\ m_instantaneous m = true /\
  let d := disk (run [Prepare p; WriteOut k U]) in
  (forall c, stored d (m_name m, c, Points) <> Some (map (map snd) ps)) /\
  forall values, stored d (m_name m, k, Instantaneous) = Some values -> nth_error values 0 <> Some (map (fun p => U 0%nat (fst p)) (hd [] ps)).
Proof.
  exists {| interior := [(middle_manifold, [[(1%nat, [1])]])]; boundary := [(middle_manifold, [[(0%nat, [2])]])] |},
    0%nat, (fun _ i => [INR i]), middle_manifold, [[(1%nat, [1])]].
  split; [repeat constructor; intros []|]. split; [repeat constructor; intros []|]. split; [left; reflexivity|]. split; [reflexivity|].
  cbn zeta. split.
  - intros [|c] H; cbn in H; [|discriminate]. injection H as H. lra.
  - intros values H. cbn in H. injection H as <-. cbn. intros E. injection E as E. lra.
Qed.

(** The second of two interior manifolds with the same name is ignored. *)
Lemma C157_ignored_refuted_proof : exists ranks M (a b : manifold) U,
  m_name a = m_name b /\ m_instantaneous b = true /\ all_points ranks M (m_level b) <> [] /\
  let d := disk (run [Prepare (prepare ranks M [a; b] []); WriteOut 0 U]) in
  forall f x m, In f d -> snd (fst f) = Points -> In (m, x) (all_points ranks M (m_level b)) -> ~ In (x ++ [m])%list (concat (snd f)).
Proof.
  set (b := {| m_name := "middle"; m_level := fun x => Some (hd 0 x); m_instantaneous := true; m_time_averaged := false |}).
  exists 2%nat, two_cells, middle_manifold, b, (fun _ _ => []).
  assert (S0 : forall v, 0 < v -> selects_interior (fun x => Some (hd 0 x)) [1 / 10 ^ 12 + v] = false).
  { intros v Hv. unfold selects_interior. cbn [hd]. rewrite Rabs_pos_eq by lra. destruct (Rlt_dec _ _); [reflexivity|lra]. }
  assert (Z : selects_interior (fun x => Some (hd 0 x)) [0] = true).
  { unfold selects_interior. cbn [hd]. rewrite Rabs_R0. destruct (Rlt_dec _ _); [lra|reflexivity]. }
  assert (P1 : selects_interior (fun x => Some (hd 0 x)) [1] = false) by (replace 1 with (1 / 10 ^ 12 + (1 - 1 / 10 ^ 12)) at 1 by lra; apply S0; lra).
  assert (P2 : selects_interior (fun x => Some (hd 0 x)) [2] = false) by (replace 2 with (1 / 10 ^ 12 + (2 - 1 / 10 ^ 12)) at 1 by lra; apply S0; lra).
  assert (M0 : selects_interior middle [0] = false).
  { unfold selects_interior, middle. cbn [hd]. rewrite Rabs_left by lra. destruct (Rlt_dec _ _); [reflexivity|lra]. }
  assert (M1 : selects_interior middle [1] = true).
  { unfold selects_interior, middle. cbn [hd]. rewrite Rminus_diag_eq, Rabs_R0 by reflexivity. destruct (Rlt_dec _ _); [lra|reflexivity]. }
  assert (M2 : selects_interior middle [2] = false).
  { unfold selects_interior, middle. cbn [hd]. rewrite Rabs_pos_eq by lra. destruct (Rlt_dec _ _); [reflexivity|lra]. }
  assert (AB : all_points 2 two_cells (m_level b) = [(1 / 2, [0])]).
  { unfold all_points, interior_map, b. cbn [m_level flat_map seq map two_cells cells fold_left Nat.eqb cell_owner cell_dofs].
    unfold visit_dof. cbn [fst snd]. rewrite Z, P1, P2. reflexivity. }
  split; [reflexivity|]. split; [reflexivity|]. rewrite AB. split; [discriminate|]. cbn zeta.
  assert (PR : prepare 2 two_cells [middle_manifold; b] [] = {| interior := [(middle_manifold, [[(1%nat, [1; 1])]; []])]; boundary := [] |}).
  { unfold prepare. cbn [map first_of m_name b middle_manifold existsb String.eqb Ascii.eqb Bool.eqb andb orb].
    unfold interior_map. cbn [m_level b middle_manifold seq map two_cells cells fold_left Nat.eqb cell_owner cell_dofs].
    unfold visit_dof. rewrite M0, M1, M2. reflexivity. }
  rewrite PR. cbn. intros f x m [<-|[<-|[]]] K [E|[]]; cbn in *; try discriminate. injection E as <- <-. intros [Q|[]]. injection Q as Q _. lra.
Qed.
