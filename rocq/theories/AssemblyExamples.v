(** * One-dimensional meshes as instances, and witnesses *)
From Coq Require Import Reals List Bool Arith Lia Lra.
From Verif Require Import RVec Scheme SchemeSpec SchemeProofs SchemeFinal SchemeExamples AssemblySpec AssemblyProofs AssemblyFinal AssemblyRanks AssemblyMesh.
From Verif Require Import Assembly.
Import ListNotations.
Local Open Scope R_scope.

(** Continuous linear, discontinuous linear, piecewise constant elements. *)
Inductive kind := CG1 | DG1 | DG0.
Definition is_dg (k : kind) : bool := match k with CG1 => false | _ => true end.

(** n cells of size one on a line, periodic or not; two ranks that see all
    cells: the first owns cell 0.  Simpson's rule on the cells. *)
Definition line_dof (k : kind) (c i : nat) : nat := match k with CG1 => (c + i)%nat | DG1 => (2 * c + i)%nat | DG0 => c end.
Definition line_rank (c : nat) : nat := match c with 0%nat => 0%nat | _ => 1%nat end.
Definition line_value (k : kind) (i : nat) (x : R) : R := match k with DG0 => 1 | _ => match i with 0%nat => 1 - x | _ => x end end.
Definition line_neighbor (n : nat) (per : bool) (c f : nat) : option (nat * nat) :=
  match f with
  | 0%nat => match c with 0%nat => if per then Some (pred n, 1%nat) else None | Datatypes.S c' => Some (c', 1%nat) end
  | _ => if Nat.eqb (Datatypes.S c) n then if per then Some (0%nat, 0%nat) else None else Some (Datatypes.S c, 0%nat)
  end.
Definition line (k : kind) (n : nat) (per : bool) : geometry := {|
  g_dim := 1; g_n_dofs := match k with CG1 => Datatypes.S n | DG1 => 2 * n | DG0 => n end; g_n_cells := n;
  g_n_local := match k with DG0 => 1 | _ => 2 end; g_dof := line_dof k;
  g_n_points := 3; g_JxW := fun _ q => match q with 1%nat => 4 / 6 | _ => 1 / 6 end;
  g_value := fun _ i q => line_value k i (INR q / 2);
  g_grad := fun _ i _ d => match k with DG0 => 0 | _ => match d with 0%nat => match i with 0%nat => -1 | _ => 1 end | _ => 0 end end;
  g_n_faces := 2; g_neighbor := line_neighbor n per;
  g_at_boundary := fun c f => match f with 0%nat => Nat.eqb c 0 | _ => Nat.eqb (Datatypes.S c) n end;
  g_boundary_id := fun _ _ => if per then 1%nat else 0%nat;
  g_support := fun i f => match k with DG0 => true | _ => Nat.eqb i f end;
  g_n_face_points := 1; g_face_JxW := fun _ _ _ => 1;
  g_normal := fun _ f _ _ => match f with 0%nat => -1 | _ => 1 end;
  g_face_value := fun _ f i _ => match k with DG0 => 1 | _ => if Nat.eqb i f then 1 else 0 end;
  g_n_nodes := 1; g_node_value := fun _ f i _ => match k with DG0 => 1 | _ => if Nat.eqb i f then 1 else 0 end;
  g_constraint := fun g => match k with CG1 => if per && Nat.eqb g n then Some [(0%nat, 1)] else None | _ => None end;
  g_discontinuous := is_dg k; g_even := match k with DG0 => true | _ => false end;
  g_relaxation_even := 1; g_relaxation_odd := 0;
  g_extra := fun _ _ => 1;
  g_invert := fun A i j => match k with
    | DG0 => / A 0%nat 0%nat
    | _ => (if Nat.eqb i j then A (1 - i)%nat (1 - j)%nat else - A i j) / (A 0%nat 0%nat * A 1%nat 1%nat - A 0%nat 1%nat * A 1%nat 0%nat)
    end;
  g_n_ranks := 2; g_rank := line_rank; g_visible := fun _ _ => true;
  g_row_rank := fun I => match k with CG1 => line_rank I | DG1 => line_rank (I / 2) | DG0 => line_rank I end;
  g_row_index := fun I => I; g_row_lanes := fun I => [I] |}.

Ltac two i := destruct i as [|[|i]]; [| |lia].

Lemma line_neighbor_spec n per c f c' f' : (c < n)%nat -> (f < 2)%nat -> line_neighbor n per c f = Some (c', f') ->
  (c' < n)%nat /\ (f' < 2)%nat /\ line_neighbor n per c' f' = Some (c, f) /\
  ((f = 0 /\ f' = 1)%nat \/ (f = 1 /\ f' = 0)%nat) /\
  (((c' + f' = c + f)%nat /\ (0 < c + f < n)%nat) \/ (per = true /\ ((c + f = 0 /\ c' + f' = n) \/ (c + f = n /\ c' + f' = 0))%nat)).
Proof.
  intros C F. two f; cbn [line_neighbor].
  - destruct c as [|c].
    + destruct per; [|discriminate]. intros E. injection E as <- <-. split; [lia|]. split; [lia|].
      cbn [line_neighbor]. replace (Datatypes.S (pred n)) with n by lia. rewrite Nat.eqb_refl. split; [reflexivity|]. split; [auto|]. right. split; [reflexivity|lia].
    + intros E. injection E as <- <-. split; [lia|]. split; [lia|]. cbn [line_neighbor].
      destruct (Nat.eqb_spec (Datatypes.S c) n); [lia|]. split; [reflexivity|]. split; [auto|]. left. lia.
  - destruct (Nat.eqb_spec (Datatypes.S c) n) as [E|E].
    + destruct per; [|discriminate]. intros X. injection X as <- <-. split; [lia|]. split; [lia|]. cbn [line_neighbor].
      replace (pred n) with c by lia. split; [reflexivity|]. split; [auto|]. right. split; [reflexivity|lia].
    + intros X. injection X as <- <-. split; [lia|]. split; [lia|]. cbn [line_neighbor]. split; [reflexivity|]. split; [auto|]. left. lia.
Qed.

Lemma line_matching k n per : matching_faces (line k n per).
Proof.
  intros c f c' f' C F N. cbn in C, F, N. destruct (line_neighbor_spec n per c f c' f' C F N) as (A & B & E & D & _).
  split; [exact A|]. split; [exact B|]. split; [exact E|]. intros q _. split; [reflexivity|]. intros d. cbn.
  destruct D as [[-> ->]|[-> ->]]; lra.
Qed.

Lemma line_indices k n per : valid_indices (line k n per).
Proof. intros c i C I. cbn in C. destruct k; cbn in I |- *; lia. Qed.
Lemma line_closed k n per : (0 < n)%nat -> closed_constraints (line k n per).
Proof.
  intros Pn g line0 L E. destruct k; cbn in E; [|discriminate|discriminate]. destruct per; [|discriminate]. cbn in E.
  destruct (Nat.eqb_spec g n) as [Eg|]; [|discriminate]. injection E as <-. split; [cbn; ring|]. intros e [<-|[]]. split; [cbn; lia|].
  cbn. destruct n; [lia|reflexivity].
Qed.
Lemma line_unity k n per : partition_of_unity (line k n per).
Proof.
  intros c _. split.
  - intros q Q. cbn in Q. destruct k; cbn; (split; [lra|]); intros [|d]; cbn; lra.
  - intros f q F _. cbn in F. two f; destruct k; cbn; lra.
Qed.
Lemma line_gauss k n per : gauss_theorem (line k n per).
Proof.
  intros c d i j _ D Hi Hj. cbn in D. destruct d as [|d]; [|lia].
  destruct k; cbn in Hi, Hj; [two i; two j; cbn; lra|two i; two j; cbn; lra|]. cbn. lra.
Qed.
Lemma line_continuous n per : (0 < n)%nat -> continuous_basis (line CG1 n per).
Proof.
  intros Pn c f c' f' q I C F N _ _. cbn in C, F, N. destruct (line_neighbor_spec n per c f c' f' C F N) as (A & _ & _ & D & Ps).
  assert (V : forall c f, (f < 2)%nat -> basis_face (line CG1 n per) I c f q = weight (line CG1 n per) I (c + f)%nat).
  { intros c0 f0 F0. unfold basis_face. set (W := weight (line CG1 n per) I). two f0; cbn; ring. }
  rewrite !V by lia. destruct Ps as [[-> _]|[-> Ps]]; [reflexivity|].
  assert (W : weight (line CG1 n true) I n = weight (line CG1 n true) I 0).
  { unfold weight. cbn [line g_constraint andb]. rewrite Nat.eqb_refl. destruct (Nat.eqb_spec 0 n); [lia|]. destruct I; cbn; ring. }
  destruct Ps as [[-> ->]|[-> ->]]; [exact W|symmetry; exact W].
Qed.
Lemma line_cellwise k n per : is_dg k = true -> cellwise (line k n per).
Proof.
  intros D. split; [exact D|]. split; [intros g; destruct k; [discriminate|reflexivity|reflexivity]|]. split.
  - intros c i c' i' C Hi C' Hi' E. destruct k; [discriminate| |]; cbn in Hi, Hi', E; lia.
  - intros c i C Hi. destruct k; [discriminate| |]; cbn in Hi |- *; [|reflexivity]. f_equal. rewrite Nat.add_0_r. symmetry. apply (Nat.div_unique _ 2 c i); lia.
Qed.
Lemma line_ansatz k n per : (0 < n)%nat -> valid_ansatz (line k n per).
Proof.
  intros Pn. split; [apply line_indices|]. split; [apply line_closed, Pn|]. split; [apply line_unity|]. split; [apply line_gauss|].
  cbn [g_discontinuous line]. destruct (is_dg k) eqn:D; [split; [apply line_cellwise, D|apply line_matching]|].
  destruct k; try discriminate. apply C103_faces_cancel_proof; [apply line_matching|apply line_continuous, Pn].
Qed.
Lemma line_positive k n per : (0 < n)%nat -> positive_shapes (line k n per).
Proof.
  intros Pn. split; [|split].
  - intros c i _ Hi. destruct k; cbn in Hi; [two i|two i|]; cbn; lra.
  - intros g line0 e E He. destruct k; cbn in E; [|discriminate|discriminate]. destruct (per && Nat.eqb g n); [|discriminate].
    injection E as <-. destruct He as [<-|[]]. cbn. lra.
  - intros I [L _]. destruct k; cbn in L.
    + destruct (Nat.eq_dec I n) as [->|N].
      * exists (pred n), 1%nat. cbn. lia.
      * exists I, 0%nat. cbn. lia.
    + exists (I / 2)%nat, (I mod 2)%nat. cbn. assert (A := Nat.div_mod I 2 ltac:(lia)). assert (B := Nat.mod_upper_bound I 2 ltac:(lia)). cbn in A, B. lia.
    + exists I, 0%nat. cbn. lia.
Qed.
Lemma line_support k n per : support_correct (line k n per).
Proof. intros c f i _ F Hi S. destruct k; cbn in *; try discriminate; rewrite S; auto. Qed.
Lemma line_marked k n per : (0 < n)%nat -> boundary_marked (line k n per).
Proof.
  intros Pn c f C F N. change (line_neighbor n per c f = None) in N. cbn in C, F. two f; unfold line_neighbor in N.
  - destruct c as [|c]; [|discriminate]. destruct per; [discriminate|]. split; [reflexivity|]. split; [cbn; lia|].
    intros i l e _ _ E. destruct k; cbn in E; discriminate.
  - destruct (Nat.eqb_spec (Datatypes.S c) n) as [E|]; [|discriminate]. destruct per; [discriminate|]. split; [subst n; apply Nat.eqb_refl|]. split; [cbn; lia|].
    intros i l e _ _ E'. destruct k; cbn in E'; discriminate.
Qed.
Lemma line_inverse k n per c : inverse_matrix (g_n_local (line k n per)) (cell_mass (line k n per) c) (g_invert (line k n per) (cell_mass (line k n per) c)).
Proof.
  intros i j Hi Hj. destruct k; cbn in Hi, Hj; [two i; two j|two i; two j|destruct i, j; try lia]; cbn; split; lra.
Qed.
Lemma line_ghosts k n per : ghost_layer (line k n per).
Proof. split; [|split; [reflexivity|intros; split; reflexivity]]. intros c _. cbn. destruct c; cbn; lia. Qed.

Lemma line_complete k n per : (0 < n)%nat -> complete_ansatz (line k n per).
Proof.
  intros Pn. split; [apply line_ansatz, Pn|]. split; [apply line_positive, Pn|]. split; [apply line_support|]. split; [apply line_marked, Pn|].
  split; [apply line_ghosts|]. intros _ c _. apply line_inverse.
Qed.
Lemma line_no_boundary k n : (0 < n)%nat -> no_boundary (line k n true).
Proof. intros Pn c f C F. cbn in F. change (line_neighbor n true c f <> None). two f; unfold line_neighbor; [destruct c; discriminate|]. destruct (Nat.eqb (Datatypes.S c) n); discriminate. Qed.

(** ** C104: a pair that meets at two faces is counted twice *)
Lemma two_encounters : encounters (line DG0 2 true) (1 / 1000000) 0 1 = 2%nat.
Proof.
  unfold encounters. cbn. destruct Rlt_dec as [L|L]; [reflexivity|]. exfalso. apply L. rewrite Rmult_1_l, Rabs_R1. lra.
Qed.

Lemma C104_once_refuted_proof : exists G, complete_ansatz G /\ cellwise G /\ no_boundary G /\
  exists eps I J, 0 < eps /\ free G I /\ free G J /\ I <> J /\
    incidence_entry G eps (lumped G (mass_entry G)) I J = 2 * incidence_weight G (lumped G (mass_entry G)) I J /\
    0 < incidence_weight G (lumped G (mass_entry G)) I J.
Proof.
  exists (line DG0 2 true). split; [apply line_complete; lia|]. split; [apply line_cellwise; reflexivity|]. split; [apply line_no_boundary; lia|].
  exists (1 / 1000000), 0%nat, 1%nat. split; [lra|]. split; [split; [cbn; lia|reflexivity]|]. split; [split; [cbn; lia|reflexivity]|]. split; [lia|].
  split.
  - rewrite C104_encounters_proof by (apply line_cellwise; reflexivity). rewrite two_encounters. cbn. ring.
  - unfold incidence_weight. apply powr_gt0.
    assert (P : forall I, free (line DG0 2 true) I -> 0 < lumped (line DG0 2 true) (mass_entry (line DG0 2 true)) I <= integral (line DG0 2 true) (fun _ _ => 1)).
    { intros I F. apply C102_positive_proof; [apply line_indices|apply line_closed; lia|apply line_unity|apply line_positive; lia|exact F]. }
    assert (P0 := P 0%nat ltac:(split; [cbn; lia|reflexivity])). assert (P1 := P 1%nat ltac:(split; [cbn; lia|reflexivity])).
    rewrite measure_integral by (apply line_ghosts). apply Rdiv_lt_0_compat; lra.
Qed.

(** ** C105: cells of the ghost layer are counted by every rank that sees them *)
Lemma C105_measure_refuted_proof : exists G, complete_ansatz G /\ ghost_layer G /\
  integral G (fun _ _ => 1) = 3 /\ measure_without_trilinos G = 6.
Proof.
  exists (line CG1 3 false). split; [apply line_complete; lia|]. split; [apply line_ghosts|]. split.
  - unfold integral. cbn. lra.
  - rewrite C105_measure_without_proof. unfold integral. cbn. lra.
Qed.

(** ** C106: from the mesh to the time step *)
Lemma C106_conservation_proof : forall K (S : system K) G eps num_min F order n a0 d0 l0 ln0 new0 old stages tau k V,
  complete_ansatz G -> no_boundary G ->
  let M := assembled_mesh G eps in
  valid_numbering M -> symmetric_riemann S M old -> nonneg_riemann S ->
  plain S -> central_flux S (g_dim G) F -> have_high_order_flux K S = false ->
  (forall I, free G I -> active M I) ->
  (forall I, active M I -> V I = fst (hyperbolic_update S M num_min order n a0 d0 l0 ln0 new0 old stages tau) I) ->
  satisfies_constraints G (fun I => V I k) -> satisfies_constraints G (fun I => fst old I k) ->
  integral G (fe_function G (fun I => V I k)) = integral G (fe_function G (fun I => fst old I k)).
Proof.
  intros K S G eps num_min F order n a0 d0 l0 ln0 new0 old stages tau k V Co Nb M Nu Sr Nn Pl Ce Ho Fa Va Sv So.
  destruct (C106_mesh_proof G eps Co) as (X1 & X2 & X3 & X4 & X5 & X6 & X7 & X8). fold M in X1, X2, X3, X4, X5, X6, X7, X8.
  assert (E := C19_exact_proof K S M num_min (g_dim G) F order n a0 d0 l0 ln0 new0 old stages tau k X1 X2 Nu X3 Sr Nn Pl Ce Ho (X8 Nb)).
  cbv zeta in E. destruct Co as ((V1 & V2 & V3 & _) & _).
  assert (T : forall U : nat -> state K, satisfies_constraints G (fun I => U I k) -> integral G (fe_function G (fun I => U I k)) = total M (active_rows M) U k).
  { intros U Su. rewrite <- C102_integral_proof by assumption. unfold total. unfold active_rows. rewrite lsum_filter, <- rsum_lsum.
    cbn [n_rows M assembled_mesh]. apply rsum_ext. intros I L. destruct (constrained M I) eqn:Cn; cbn [negb]; [|reflexivity].
    rewrite C102_constrained_proof; [ring|assumption|assumption|]. destruct (is_constrained G I) eqn:Z; [reflexivity|]. exfalso.
    destruct (Fa I (not_constrained_free G I L Z)) as [_ N]. unfold constrained in Cn. apply N. apply Nat.eqb_eq, Cn. }
  rewrite (T V Sv), (T (fst old) So), <- E. unfold total. apply lsum_ext. intros I HI. rewrite Va; [reflexivity|]. apply active_spec, HI.
Qed.

Lemma C106_uniform_proof : forall K (S : system K) G eps num_min F u f order n a0 d0 l0 ln0 new0 old stages tau i,
  complete_ansatz G ->
  let M := assembled_mesh G eps in
  plain S -> have_high_order_flux K S = false -> central_flux S (g_dim G) F ->
  (forall v, v = old \/ In v (map fst stages) -> forall j, active M j -> fst v j = u /\ flux_contribution K S (snd v) j u = f) ->
  active M i ->
  fst (hyperbolic_update S M num_min order n a0 d0 l0 ln0 new0 old stages tau) i = u.
Proof.
  intros K S G eps num_min F u f order n a0 d0 l0 ln0 new0 old stages tau i Co M Pl Ho Ce Un Ac.
  destruct (C106_mesh_proof G eps Co) as (X1 & X2 & X3 & X4 & X5 & X6 & X7 & X8).
  eapply C21_uniform_proof; eassumption.
Qed.

Lemma line_numbering k n per eps : valid_numbering (assembled_mesh (line k n per) eps).
Proof. split; [intros i _; left; reflexivity|intros i j _ _ _ E; exact E]. Qed.
Lemma line_active eps I : free (line CG1 3 true) I -> active (assembled_mesh (line CG1 3 true) eps) I.
Proof.
  intros [L F]. cbn in L, F. split; [exact L|]. destruct I as [|[|[|[|I]]]]; cbn in F |- *; try lia; discriminate.
Qed.
Definition hat_state : (nat -> state unit) * unit := (fun i _ => match i with 1%nat => 1 | _ => 0 end, tt).
Lemma hat_constraints : satisfies_constraints (line CG1 3 true) (fun I => fst hat_state I tt).
Proof.
  intros g l L E. cbn in E. destruct (Nat.eqb_spec g 3); [|discriminate]. injection E as <-. subst. cbn. ring.
Qed.
