(** * Mesh creation and resumption: proofs *)
From Coq Require Import Reals List Arith Bool String Lia Lra FunctionalExtensionality.
From Verif Require Import RVec Discretization DiscretizationProofs DiscretizationTensor MeshTransfer MeshTransferSpec MeshTransferProofs MeshTransferFinal MeshResume MeshResumeSpec.
Import ListNotations.
Local Open Scope R_scope.

(** Sons are where the map of the parent puts them. *)
Fixpoint regular (dim : nat) (m : mesh) : Prop :=
  match m with
  | active _ => True
  | parent V s => forall c, vertices (s c) = son_cell dim V c /\ regular dim (s c)
  end.

Lemma refine_all_regular dim m : regular dim m -> regular dim (refine_all dim m) /\ vertices (refine_all dim m) = vertices m.
Proof.
  induction m as [V|V s IH]; intros H; cbn [refine_all regular vertices] in *; [split; [intros c; split; [reflexivity|exact Logic.I]|reflexivity]|].
  split; [|reflexivity]. intros c. destruct (H c) as [A B]. destruct (IH c B) as [C D]. split; [rewrite D; exact A|exact C].
Qed.
Lemma refine_global_regular dim n : forall m, regular dim m -> regular dim (refine_global dim n m) /\ vertices (refine_global dim n m) = vertices m.
Proof.
  induction n as [|n IH]; intros m H; [split; [exact H|reflexivity]|]. cbn [refine_global]. destruct (refine_all_regular dim m H) as [A B].
  destruct (IH _ A) as [C D]. split; [exact C|]. rewrite D. exact B.
Qed.
Lemma adapt_mesh_regular dim m : forall flags, regular dim m -> regular dim (adapt_mesh dim flags m) /\ vertices (adapt_mesh dim flags m) = vertices m.
Proof.
  induction m as [V|V s IH]; intros flags H; cbn [adapt_mesh].
  - destruct (flags []); cbn; split; try reflexivity; try exact Logic.I. intros c. split; [reflexivity|exact Logic.I].
  - destruct (forallb _ _); [split; [exact Logic.I|reflexivity]|]. cbn [regular vertices] in *. split; [|reflexivity].
    intros c. destruct (H c) as [A B]. destruct (IH c (fun way => flags (c :: way)) B) as [C D]. split; [rewrite D; exact A|exact C].
Qed.

Lemma load_save dim m : regular dim m -> load dim (vertices m) (save m) = m.
Proof.
  induction m as [V|V s IH]; intros H; [reflexivity|]. cbn [save load vertices regular] in *. f_equal. apply functional_extensionality. intros c.
  destruct (H c) as [A B]. rewrite <- A. apply IH. exact B.
Qed.

Lemma load_all_save dim : forall coarse ms, map vertices coarse = map vertices ms -> (forall m, In m ms -> regular dim m) ->
  load_all dim coarse (map save ms) = Some ms.
Proof.
  induction coarse as [|b coarse IH]; intros [|m ms] E H; try discriminate; [reflexivity|]. cbn [map] in E. injection E as E1 E2.
  cbn [map load_all]. rewrite IH; [|exact E2|intros; apply H; right; assumption]. rewrite E1, load_save; [reflexivity|]. apply H. left. reflexivity.
Qed.

Lemma create_active l : forall g coarse, create_triangulation l g = Some coarse -> exists cells, coarse = map active cells /\ In (g, cells) l.
Proof.
  induction l as [|[name cells] l IH]; intros g coarse E; [discriminate|]. cbn [create_triangulation] in E. destruct (String.eqb_spec name g) as [->|N].
  - injection E as <-. exists cells. split; [reflexivity|left; reflexivity].
  - destruct (IH g coarse E) as (c & A & B). exists c. split; [exact A|right; exact B].
Qed.

Definition adaptations_of (dim : nat) (ms : list mesh) (l : list (nat -> list nat -> flag)) : list mesh :=
  fold_left (fun ms flags => map (fun '(k, m) => adapt_mesh dim (flags k) m) (combine (seq 0 (List.length ms)) ms)) l ms.

Lemma combine_in (k : nat) (m : mesh) : forall ms s, In (k, m) (combine (seq s (List.length ms)) ms) -> In m ms.
Proof. intros ms s H. apply in_combine_r in H. exact H. Qed.

Lemma map_combine_vertices dim (flags : nat -> list nat -> flag) : forall ms s, (forall m, In m ms -> regular dim m) ->
  map vertices (map (fun '(k, m) => adapt_mesh dim (flags k) m) (combine (seq s (List.length ms)) ms)) = map vertices ms.
Proof.
  induction ms as [|m ms IH]; intros s H; [reflexivity|]. cbn [List.length seq combine map]. rewrite IH by (intros; apply H; right; assumption).
  f_equal. apply adapt_mesh_regular. apply H. left. reflexivity.
Qed.

Lemma adaptations_regular dim l : forall ms, (forall m, In m ms -> regular dim m) ->
  (forall m, In m (adaptations_of dim ms l) -> regular dim m) /\ map vertices (adaptations_of dim ms l) = map vertices ms.
Proof.
  induction l as [|flags l IH]; intros ms H; [split; [exact H|reflexivity]|]. unfold adaptations_of. cbn [fold_left].
  set (ms' := map _ _).
  assert (R : forall m, In m ms' -> regular dim m).
  { intros m I. apply in_map_iff in I. destruct I as ([k m0] & <- & I). apply adapt_mesh_regular. apply H. apply combine_in in I. exact I. }
  destruct (IH ms' R) as [A B]. split; [exact A|]. change (map vertices (adaptations_of dim ms' l) = map vertices ms). rewrite B. apply map_combine_vertices. exact H.
Qed.

Lemma C151_resume_proof : forall dim geometries geometry refinement distortion move move' adaptations ms,
  Rabs distortion <= 1 / 10 ^ 10 ->
  run_mesh dim geometries geometry refinement distortion move adaptations = Some ms ->
  read_mesh dim geometries geometry distortion move' (map save ms) = Some ms.
Proof.
  intros dim l g n a mv mv' ads ms Ha E. unfold run_mesh, prepare in E. unfold read_mesh, prepare.
  destruct (create_triangulation l g) as [coarse|] eqn:C; [|discriminate].
  destruct (create_active l g coarse C) as (cells & -> & _).
  destruct (Rlt_dec (1 / 10 ^ 10) (Rabs a)); [lra|]. injection E as <-.
  set (refined := map (refine_global dim n) (map active cells)).
  assert (R : forall m, In m refined -> regular dim m).
  { intros m I. apply in_map_iff in I. destruct I as (m0 & <- & I). apply in_map_iff in I. destruct I as (V & <- & _). apply refine_global_regular. exact Logic.I. }
  destruct (adaptations_regular dim ads refined R) as [A B]. apply load_all_save; [|exact A].
  unfold adaptations_of in B. rewrite B. unfold refined. rewrite !map_map. apply map_ext. intros V. symmetry. apply (refine_global_regular dim n (active V)). exact Logic.I.
Qed.

Lemma C151_unknown_proof : forall dim geometries geometry refinement distortion move,
  prepare dim geometries geometry refinement distortion move = None <-> ~ In geometry (map fst geometries).
Proof.
  intros dim l g n a mv. unfold prepare. assert (K : create_triangulation l g = None <-> ~ In g (map fst l)).
  { induction l as [|[name cells] l IH]; cbn [create_triangulation map fst In]; [tauto|]. destruct (String.eqb_spec name g) as [->|N].
    - split; [discriminate|tauto].
    - rewrite IH. tauto. }
  rewrite <- K. destruct (create_triangulation l g); [split; discriminate|tauto].
Qed.

(** The refined cells together are the coarse cell. *)
Lemma refine_place dim m x d : place_of dim (refine_all dim m) x d = place_of dim m x d.
Proof.
  revert x. induction m as [V|V s IH]; intros x; cbn [refine_all place_of]; cbv zeta.
  - unfold son_cell. rewrite son_function, parent_of_son. reflexivity.
  - apply IH.
Qed.
Lemma refine_length dim m : List.length (active_cells dim (refine_all dim m)) = (2 ^ dim * List.length (active_cells dim m))%nat.
Proof.
  induction m as [V|V s IH]; cbn [refine_all active_cells].
  - cbn [List.length]. rewrite Nat.mul_1_r. generalize (2 ^ dim)%nat. intros N. rewrite <- (seq_length N 0) at 2. induction (seq 0 N) as [|c l IHl]; cbn; [reflexivity|]. rewrite IHl. reflexivity.
  - set (N := (2 ^ dim)%nat) in *. induction (seq 0 N) as [|c l IHl]; cbn [flat_map]; [cbn; lia|]. rewrite !app_length, IHl, IH. lia.
Qed.
Lemma C151_refined_proof : forall dim geometries geometry refinement move,
  forall ms, prepare dim geometries geometry refinement 0 move = Some ms ->
  exists cells, In (geometry, cells) geometries /\ List.length ms = List.length cells /\
    forall k V m, nth_error cells k = Some V -> nth_error ms k = Some m ->
      List.length (active_cells dim m) = (2 ^ (refinement * dim))%nat /\
      forall x d, place_of dim m x d = cell_value cg_q1 dim V x d.
Proof.
  intros dim l g n mv ms E. unfold prepare in E. destruct (create_triangulation l g) as [coarse|] eqn:C; [|discriminate].
  destruct (create_active l g coarse C) as (cells & -> & I). destruct (Rlt_dec _ _) as [H|_]; [rewrite Rabs_R0 in H; lra|]. injection E as <-.
  exists cells. split; [exact I|]. split; [rewrite !map_length; reflexivity|]. intros k V m HV Hm.
  rewrite map_map, nth_error_map, HV in Hm. injection Hm as <-.
  assert (P : forall j m0, List.length (active_cells dim (refine_global dim j m0)) = (2 ^ (j * dim) * List.length (active_cells dim m0))%nat /\
    forall x d, place_of dim (refine_global dim j m0) x d = place_of dim m0 x d).
  { induction j as [|j IH]; intros m0; cbn [refine_global]; [cbn [Nat.mul Nat.pow]; split; [lia|reflexivity]|].
    destruct (IH (refine_all dim m0)) as [A B]. split.
    - rewrite A, refine_length. cbn [Nat.mul]. rewrite (Nat.add_comm dim), Nat.pow_add_r. lia.
    - intros x d. rewrite B. apply refine_place. }
  destruct (P n (active V)) as [A B]. split; [rewrite A; cbn; lia|exact B].
Qed.

(** ** A distorted mesh *)
Definition square : cell := fun v d => match d with 0%nat => INR (digit 2 v 0) | 1%nat => INR (digit 2 v 1) | _ => 0 end.
Definition squares : list (string * list cell) := [("unit square"%string, [square])].
(** The vertex in the middle of the square moves, the corners do not. *)
Definition bump (x : nat -> R) : nat -> R := fun d => if Req_EM_T (x 0%nat) (1 / 2) then x d + 1 / 10 else x d.

Lemma C151_distorted_refuted_proof : exists dim geometries geometry refinement distortion move ms ms',
  run_mesh dim geometries geometry refinement distortion move [] = Some ms /\
  read_mesh dim geometries geometry distortion move (map save ms) = Some ms' /\
  exists k m m' x d, nth_error ms k = Some m /\ nth_error ms' k = Some m' /\ place_of dim m x d <> place_of dim m' x d.
Proof.
  exists 2%nat, squares, "unit square"%string, 1%nat, (1 / 4), bump. unfold run_mesh, read_mesh, prepare, squares.
  cbn [create_triangulation map]. rewrite String.eqb_refl.
  destruct (Rlt_dec (1 / 10 ^ 10) (Rabs (1 / 4))) as [_|N]; [|exfalso; apply N; rewrite Rabs_right; lra].
  cbn [refine_global refine_all map displace fold_left save load_all vertices load].
  do 2 eexists. split; [reflexivity|]. split; [reflexivity|].
  exists 0%nat. do 2 eexists. exists (fun _ => 1 / 2), 0%nat. split; [reflexivity|]. split; [reflexivity|].
  cbn [place_of]. cbv zeta.
  assert (S0 : son_of 2 (fun _ => 1 / 2) = 0%nat).
  { cbn [son_of]. destruct (Rlt_dec (1 / 2) (1 / 2)) as [H|_]; [lra|reflexivity]. }
  rewrite S0.
  assert (X1 : forall k, (k < 2)%nat -> in_son 0 (fun _ => 1 / 2) k = node cg_q1 3 k).
  { intros k Hk. unfold in_son, node. destruct k as [|[|k]]; [| |lia]; cbn; lra. }
  rewrite !(nodal cg_q1 2 _ 3) by (try exact X1; cbn; lia). 
  assert (MC : forall W : cell, son_cell 2 W 0 3%nat 0%nat = (W 0%nat 0%nat + W 1%nat 0%nat + W 2%nat 0%nat + W 3%nat 0%nat) / 4).
  { intros W. unfold son_cell, prolongate, cell_value, n_values, shape_at, in_parent, node. cbn. field; lra. }
  assert (M : son_cell 2 square 0 3%nat 0%nat = 1 / 2) by (rewrite MC; unfold square; cbn; lra).
  cbn [save load place_of]. cbv zeta. rewrite S0, (nodal cg_q1 2 _ 3) by (try exact X1; cbn; lia). rewrite MC. unfold bump at 1. rewrite M. destruct (Req_EM_T (1 / 2) (1 / 2)) as [_|N]; [|congruence].
  assert (B : forall v, bump (square v) 0%nat = square v 0%nat).
  { intros v. unfold bump. destruct (Req_EM_T (square v 0%nat) (1 / 2)) as [E|]; [|reflexivity]. exfalso. unfold square in E.
    pose proof (digit_lt 2 v 0 ltac:(lia)) as L. destruct (digit 2 v 0) as [|[|]]; [cbn in E; lra|cbn in E; lra|lia]. }
  rewrite !B. unfold square. cbn. lra.
Qed.

(** ** Cases *)
Lemma square_case : Rabs 0 <= 1 / 10 ^ 10 /\
  exists ms, run_mesh 2 squares "unit square" 3 0 bump [fun _ way => match way with [] => keep | [0%nat; 1%nat; 1%nat] => refine | _ => coarsen end] = Some ms /\ ms <> [].
Proof.
  split; [rewrite Rabs_R0; lra|]. unfold run_mesh, prepare, squares. cbn [create_triangulation]. rewrite String.eqb_refl. eexists. split; [reflexivity|].
  destruct (Rlt_dec _ _); discriminate.
Qed.

(** ** Marks *)
Lemma forallb_cells dim flags V s :
  forallb (fun c => is_active (s c) && is_coarsen (flags [c])) (seq 0 (2 ^ dim)) = true <-> all_removed dim flags (parent V s) [].
Proof.
  rewrite forallb_forall. unfold all_removed. cbn [app cell_at]. split.
  - intros H c Hc. specialize (H c ltac:(apply in_seq; lia)). apply andb_true_iff in H as [A B].
    destruct (s c) as [U|]; [|discriminate]. split; [eexists; reflexivity|]. destruct (flags [c]); [discriminate B|discriminate B|reflexivity].
  - intros H c Hc. apply in_seq in Hc. destruct (H c ltac:(lia)) as [[U E] M]. injection E as ->. rewrite M. reflexivity.
Qed.

Lemma C151_marks_proof : forall dim flags m way V, way_in dim way -> cell_at m way = Some (active V) ->
  let m' := adapt_mesh dim flags m in
  (flags way = keep -> cell_at m' way = Some (active V)) /\
  (flags way = refine -> exists s, cell_at m' way = Some (parent V s) /\ forall c, (c < 2 ^ dim)%nat -> exists W, s c = active W) /\
  (flags way = coarsen -> cell_at m' way = Some (active V) \/
     exists up c W s, way = (up ++ [c])%list /\ all_removed dim flags m up /\ cell_at m up = Some (parent W s) /\ cell_at m' up = Some (active W)).
Proof.
  intros dim flags m way. revert flags m. induction way as [|c way IH]; intros flags m V HW E.
  - cbn [cell_at] in E. injection E as ->. cbn [adapt_mesh cell_at]. destruct (flags []); (split; [|split]); intros H; try discriminate; [reflexivity| |left; reflexivity].
    eexists. split; [reflexivity|]. intros c _. eexists. reflexivity.
  - destruct m as [|V0 s]; [discriminate|]. cbn [cell_at] in E. cbn [adapt_mesh].
    destruct (forallb _ _) eqn:F.
    + apply (forallb_cells dim flags V0 s) in F. destruct (F c (HW c (or_introl eq_refl))) as [[U EU] M]. cbn [app cell_at] in EU, M. injection EU as EU. rewrite EU in E.
      destruct way as [|]; [|discriminate]. (split; [|split]); intros H; [congruence|congruence|].
      right. exists [], c, V0, s. repeat split; try reflexivity; apply F; assumption.
    + destruct (IH (fun way => flags (c :: way)) (s c) V ltac:(intros d Hd; apply HW; right; exact Hd) E) as (K & R & C).
      cbn [cell_at]. repeat split; [exact K|exact R|]. intros H. destruct (C H) as [L|(up & d & W & s' & -> & A & B & D)]; [left; exact L|].
      right. exists (c :: up), d, W, s'. split; [reflexivity|]. split; [intros e He; cbn [app cell_at]; exact (A e He)|]. split; [exact B|exact D].
Qed.

Lemma C151_merge_proof : forall dim flags m way, way_in dim way -> all_removed dim flags m way ->
  exists W s, cell_at m way = Some (parent W s) /\ cell_at (adapt_mesh dim flags m) way = Some (active W).
Proof.
  intros dim flags m way. revert flags m. induction way as [|c way IH]; intros flags m HW A;
    assert (P0 : (0 < 2 ^ dim)%nat) by (apply Nat.neq_0_lt_0, Nat.pow_nonzero; lia);
    (destruct m as [|V0 s]; [destruct (A 0%nat P0) as [[U E] _]; discriminate|]).
  - exists V0, s. split; [reflexivity|]. cbn [adapt_mesh]. rewrite (proj2 (forallb_cells dim flags V0 s) A). reflexivity.
  - destruct (IH (fun way => flags (c :: way)) (s c) ltac:(intros d Hd; apply HW; right; exact Hd)) as (W & s' & B & D).
    { intros d Hd. exact (A d Hd). }
    exists W, s'. split; [exact B|]. cbn [adapt_mesh]. destruct (forallb _ _) eqn:F; [|exact D]. exfalso.
    apply (forallb_cells dim flags V0 s) in F. destruct (F c (HW c (or_introl eq_refl))) as [[X EX] _]. cbn [app cell_at] in EX. injection EX as EX.
    rewrite EX in B. destruct way; discriminate.
Qed.

Lemma load_all_some dim coarse : forall fs r, load_all dim coarse fs = Some r -> List.length coarse = List.length fs.
Proof.
  induction coarse as [|m coarse IH]; intros [|f fs] r E; cbn in *; try discriminate; [reflexivity|].
  destruct (load_all dim coarse fs) as [r'|] eqn:E'; [|discriminate]. f_equal. exact (IH fs r' E').
Qed.

Lemma load_all_length dim coarse : forall fs, List.length coarse = List.length fs -> exists r, load_all dim coarse fs = Some r.
Proof.
  induction coarse as [|m coarse IH]; intros [|f fs] E; cbn in *; try discriminate; [eauto|].
  destruct (IH fs ltac:(lia)) as [r ->]. eauto.
Qed.

Lemma find_geometry geometries : forall geometry cells, NoDup (map fst geometries) -> In (geometry, cells) geometries ->
  create_triangulation geometries geometry = Some (map active cells).
Proof.
  induction geometries as [|[n0 l0] rest IH]; intros geometry cells ND H; [destruct H|]. cbn [create_triangulation map fst] in *. inversion ND; subst.
  destruct H as [H|H].
  - injection H as -> ->. rewrite String.eqb_refl. reflexivity.
  - destruct (String.eqb_spec n0 geometry) as [->|]; [exfalso; apply (in_map fst) in H; contradiction|]. apply IH; assumption.
Qed.

Lemma C151_mismatch_proof : forall dim geometries geometry cells distortion move fs,
  NoDup (map fst geometries) -> In (geometry, cells) geometries ->
  (read_mesh dim geometries geometry distortion move fs = None <-> List.length fs <> List.length cells).
Proof.
  intros dim geometries geometry cells distortion move fs ND H. unfold read_mesh, prepare. rewrite (find_geometry _ _ _ ND H).
  set (l := if Rlt_dec _ _ then _ else _).
  assert (L : List.length l = List.length cells) by (unfold l; destruct (Rlt_dec _ _); rewrite !map_length; reflexivity).
  split.
  - intros E C. destruct (load_all_length dim l fs ltac:(congruence)) as [r R]. congruence.
  - intros N. destruct (load_all dim l fs) as [r|] eqn:E; [|reflexivity]. apply load_all_some in E. congruence.
Qed.

Lemma mismatch_case : NoDup (map fst squares) /\ In ("unit square"%string, [square]) squares /\ List.length [stop; stop] <> List.length [square].
Proof. split; [repeat constructor; intros []|]. split; [left; reflexivity|discriminate]. Qed.

Lemma cells_case : let m := parent square (fun c => if Nat.eqb c 1 then parent (son_cell 2 square 1) (fun d => active (son_cell 2 (son_cell 2 square 1) d)) else active (son_cell 2 square c)) in
  let flags := fun way => match way with [0%nat] => refine | [1%nat; _] => coarsen | _ => keep end in
  way_in 2 [0%nat] /\ cell_at m [0%nat] = Some (active (son_cell 2 square 0)) /\ way_in 2 [1%nat] /\ all_removed 2 flags m [1%nat].
Proof. cbv zeta. unfold way_in, all_removed. cbn. repeat split; intros; try lia; eauto. Qed.
