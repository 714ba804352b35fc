(** * Proofs: boundary conditions and conformity of the generated meshes *)
From Coq Require Import Reals ZArith List Bool Arith Lia Lra.
From Verif Require Import EulerSystem Geometry GeometrySpec.
Import ListNotations.
Local Open Scope R_scope.

Lemma lt_true x y : x < y -> lt x y = true.
Proof. intros H. unfold lt. destruct (Rlt_dec x y); [reflexivity|contradiction]. Qed.
Lemma lt_false x y : y <= x -> lt x y = false.
Proof. intros H. unfold lt. destruct (Rlt_dec x y); [lra|reflexivity]. Qed.

Lemma subdivided_some dim n p1 p2 b : subdivided_hyper_rectangle dim n p1 p2 = Some b ->
  (forall d, (d < dim)%nat -> (0 < n d)%Z /\ p1 d <> p2 d) /\
  b = {| lower := fun d => Rmin (p1 d) (p2 d); upper := fun d => Rmax (p1 d) (p2 d); cells := n |}.
Proof.
  unfold subdivided_hyper_rectangle. destruct (forallb _ _) eqn:E; intros H; [|discriminate H].
  split; [|injection H as <-; reflexivity].
  intros d Hd. rewrite forallb_forall in E. specialize (E d ltac:(apply in_seq; lia)).
  apply andb_prop in E. destruct E as [E1 E2]. split; [apply Z.ltb_lt; exact E1|].
  destruct (Req_EM_T (p1 d) (p2 d)); [discriminate E2|exact n0].
Qed.

Lemma subdivided_ok dim n p1 p2 : (forall d, (d < dim)%nat -> (0 < n d)%Z /\ p1 d <> p2 d) ->
  subdivided_hyper_rectangle dim n p1 p2 =
  Some {| lower := fun d => Rmin (p1 d) (p2 d); upper := fun d => Rmax (p1 d) (p2 d); cells := n |}.
Proof.
  intros H. unfold subdivided_hyper_rectangle.
  replace (forallb _ _) with true; [reflexivity|]. symmetry. apply forallb_forall. intros d Hd. apply in_seq in Hd.
  destruct (H d ltac:(lia)) as [A B]. apply andb_true_intro. split; [apply Z.ltb_lt; exact A|].
  destruct (Req_EM_T (p1 d) (p2 d)); [contradiction|reflexivity].
Qed.

(** Where the center of a face at the edge of its block is. *)
Lemma node_0 b d : node b d 0 = lower b d.
Proof. unfold node. ring. Qed.
Lemma node_n b d : (0 < cells b d)%Z -> node b d (cells b d) = upper b d.
Proof. intros H. apply IZR_lt in H. unfold node. field. lra. Qed.

Lemma center_edge b f : at_edge b f -> (0 < cells b (direction f))%Z ->
  center b f (direction f) = if is_upper f then upper b (direction f) else lower b (direction f).
Proof.
  intros H Hc. unfold center, extent, at_edge in *. rewrite Nat.eqb_refl. destruct (is_upper f); cbn [fst snd].
  - rewrite H, node_n by exact Hc. lra.
  - rewrite H. cbn [Z.add]. rewrite node_0. lra.
Qed.

Lemma center_mid b f e : e <> direction f -> (0 <= owner f e < cells b e)%Z -> lower b e <= upper b e ->
  lower b e + width b e / 2 <= center b f e <= upper b e - width b e / 2.
Proof.
  intros He [H1 H2] Hl. unfold center, extent. rewrite (proj2 (Nat.eqb_neq _ _) He). cbn [fst snd].
  assert (Hn : upper b e = lower b e + IZR (cells b e) * width b e).
  { unfold width. field. apply not_0_IZR. lia. }
  unfold node. fold (width b e). rewrite plus_IZR.
  assert (Hw : 0 <= width b e).
  { unfold width. apply Rmult_le_pos; [lra|]. apply Rlt_le, Rinv_0_lt_compat, IZR_lt. lia. }
  assert (G1 : 0 <= IZR (owner f e)) by (apply IZR_le; exact H1).
  assert (G2 : IZR (owner f e) + 1 <= IZR (cells b e)) by (rewrite <- plus_IZR; apply IZR_le; lia).
  rewrite Hn. clear Hn. nra.
Qed.

(** ** The rectangular domain *)

Lemma create_rectangle_some dim p b id ds : create_rectangle dim p = Some (b, id, ds) ->
  (forall d, (d < dim)%nat -> (0 < requested p d)%Z /\ point_left p d <> point_right p d) /\
  b = {| lower := fun d => Rmin (point_left p d) (point_right p d);
         upper := fun d => Rmax (point_left p d) (point_right p d); cells := requested p |} /\
  id = rectangle_id dim p /\ rectangle_directions dim p = Some ds.
Proof.
  unfold create_rectangle. change (fun d => match d with O => subdivisions_x p | 1%nat => subdivisions_y p | _ => subdivisions_z p end) with (requested p).
  destruct (subdivided_hyper_rectangle _ _ _ _) as [b0|] eqn:E; intros H; [|discriminate H].
  destruct (rectangle_directions dim p) as [ds0|]; [|discriminate H].
  apply subdivided_some in E. destruct E as [A B]. injection H as -> <- <-. auto.
Qed.

Lemma boundary_one dim b c : boundary_face dim [b] c ->
  exists f, is_face dim b f /\ at_edge b f /\ forall e, (e < dim)%nat -> c e = center b f e.
Proof.
  intros (j & b0 & f & Hj & Hf & He & Hc & _). destruct j as [|j]; [|destruct j; discriminate Hj].
  injection Hj as <-. exists f. auto.
Qed.

Lemma rectangle_id_inside dim p c d up : (1 <= dim <= 3)%nat -> (d < dim)%nat ->
  (forall e, (e < dim)%nat -> point_left p e + 2 / 100000000 <= point_right p e) ->
  c d = wall_of p d up ->
  (forall e, (e < dim)%nat -> e <> d -> point_left p e + / 100000000 <= c e <= point_right p e - / 100000000) ->
  rectangle_id dim p c = configured p d up.
Proof.
  intros Hdim Hd Hw Hc Ho. unfold rectangle_id, wall_of in *. cbv zeta.
  assert (A : forall e, (e < dim)%nat -> e <> d -> lt (c e) (point_left p e + / 100000000) = false /\ lt (point_right p e - / 100000000) (c e) = false).
  { intros e He Hne. destruct (Ho e He Hne). split; apply lt_false; lra. }
  assert (B : lt (c d) (point_left p d + / 100000000) = negb up /\ lt (point_right p d - / 100000000) (c d) = up).
  { specialize (Hw d Hd). rewrite Hc. destruct up; cbn [negb]; (split; [|]); first [apply lt_true; lra|apply lt_false; lra]. }
  destruct B as [B1 B2].
  assert (dim = 1 \/ dim = 2 \/ dim = 3)%nat as [-> |[-> | ->]] by lia; cbn [Nat.leb Nat.eqb andb].
  - assert (d = 0)%nat as -> by lia. rewrite B1, B2. destruct up; reflexivity.
  - assert (d = 0 \/ d = 1)%nat as [-> | ->] by lia.
    + destruct (A 1%nat ltac:(lia) ltac:(lia)) as [A1 A2]. rewrite B1, B2, A1, A2. destruct up; reflexivity.
    + rewrite B1, B2. destruct up; reflexivity.
  - assert (d = 0 \/ d = 1 \/ d = 2)%nat as [-> |[-> | ->]] by lia.
    + destruct (A 1%nat ltac:(lia) ltac:(lia)) as [A1 A2]. destruct (A 2%nat ltac:(lia) ltac:(lia)) as [A3 A4].
      rewrite B1, B2, A1, A2, A3, A4. destruct up; reflexivity.
    + destruct (A 2%nat ltac:(lia) ltac:(lia)) as [A3 A4]. rewrite B1, B2, A3, A4. destruct up; reflexivity.
    + rewrite B1, B2. destruct up; reflexivity.
Qed.

Lemma C137_sides_proof : forall dim p b id ds c, (1 <= dim <= 3)%nat ->
  create_rectangle dim p = Some (b, id, ds) ->
  (forall d, (d < dim)%nat -> point_left p d < point_right p d) ->
  (forall d, (d < dim)%nat -> 2 / 100000000 <= (point_right p d - point_left p d) / IZR (requested p d)) ->
  boundary_face dim [b] c ->
  (exists d up, (d < dim)%nat /\ c d = wall_of p d up) /\
  (forall d up, (d < dim)%nat -> c d = wall_of p d up -> id c = configured p d up).
Proof.
  intros dim p b id ds c Hdim Hcr Hlr Hsz Hb.
  apply create_rectangle_some in Hcr. destruct Hcr as (Hn & -> & -> & _).
  apply boundary_one in Hb. destruct Hb as (f & [Hdir Hf] & He & Hc).
  set (b := {| lower := _; upper := _; cells := _ |}) in *.
  assert (Lo : forall e, (e < dim)%nat -> lower b e = point_left p e).
  { intros e H. unfold b; cbn. apply Rmin_left. specialize (Hlr e H). lra. }
  assert (Up : forall e, (e < dim)%nat -> upper b e = point_right p e).
  { intros e H. unfold b; cbn. apply Rmax_right. specialize (Hlr e H). lra. }
  assert (Cn : forall e, cells b e = requested p e) by reflexivity.
  assert (W : forall e, (e < dim)%nat -> 2 / 100000000 <= width b e).
  { intros e H. unfold width. rewrite Lo, Up by exact H. exact (Hsz e H). }
  assert (D : c (direction f) = wall_of p (direction f) (is_upper f)).
  { rewrite Hc by exact Hdir. rewrite center_edge; [|exact He|rewrite Cn; apply (Hn _ Hdir)].
    unfold wall_of. destruct (is_upper f); [apply Up|apply Lo]; exact Hdir. }
  assert (O : forall e, (e < dim)%nat -> e <> direction f -> point_left p e + / 100000000 <= c e <= point_right p e - / 100000000).
  { intros e H Hne. rewrite Hc by exact H. pose proof (W e H) as We. specialize (Hlr e H).
    destruct (center_mid b f e Hne (Hf e H)) as [M1 M2]; [rewrite Lo, Up by exact H; lra|].
    rewrite Lo in M1 by exact H. rewrite Up in M2 by exact H. lra. }
  assert (S : forall e, (e < dim)%nat -> point_left p e + 2 / 100000000 <= point_right p e).
  { intros e H. specialize (Hsz e H). specialize (Hlr e H). destruct (Hn e H) as [Hp _].
    assert (1 <= IZR (requested p e)) by (apply IZR_le; lia).
    assert ((point_right p e - point_left p e) / IZR (requested p e) <= point_right p e - point_left p e).
    { apply (Rmult_le_reg_r (IZR (requested p e))); [lra|]. unfold Rdiv. rewrite Rmult_assoc, Rinv_l by lra. nra. }
    lra. }
  split; [exists (direction f), (is_upper f); auto|].
  intros d up Hd Hw. apply rectangle_id_inside; auto.
  intros e H Hne. destruct (Nat.eq_dec e (direction f)) as [->|Hx]; [|apply O; assumption].
  exfalso. assert (Hx : d <> direction f) by (intro E; apply Hne; symmetry; exact E).
  specialize (O d Hd Hx). specialize (S d Hd). rewrite Hw in O. unfold wall_of in O. destruct up; lra.
Qed.

Lemma periodic_direction_spec d b1 b2 :
  (periodic_direction d b1 b2 = Some [d] /\ b1 = periodic /\ b2 = periodic) \/
  (periodic_direction d b1 b2 = Some [] /\ b1 <> periodic /\ b2 <> periodic) \/
  (periodic_direction d b1 b2 = None /\ ~ (b1 = periodic <-> b2 = periodic)).
Proof.
  unfold periodic_direction.
  destruct b1, b2; cbn; auto;
    first [left; repeat split; (reflexivity || discriminate) | right; left; repeat split; (reflexivity || discriminate)
          | right; right; split; [reflexivity|]; intros [A B]; first [discriminate (A eq_refl)|discriminate (B eq_refl)]].
Qed.

Lemma C137_periodic_proof : forall dim p, (1 <= dim <= 3)%nat ->
  (forall d, (d < dim)%nat -> (0 < requested p d)%Z /\ point_left p d <> point_right p d) ->
  (create_rectangle dim p <> None <->
   forall d, (d < dim)%nat -> (configured p d false = periodic <-> configured p d true = periodic)) /\
  (forall b id ds, create_rectangle dim p = Some (b, id, ds) ->
     NoDup ds /\ forall d, In d ds <-> (d < dim)%nat /\ configured p d false = periodic /\ configured p d true = periodic).
Proof.
  intros dim p Hdim Hok.
  assert (E : create_rectangle dim p = match rectangle_directions dim p with
     | Some ds => Some ({| lower := fun d => Rmin (point_left p d) (point_right p d);
         upper := fun d => Rmax (point_left p d) (point_right p d); cells := requested p |}, rectangle_id dim p, ds) | None => None end).
  { unfold create_rectangle. change (fun d => match d with O => subdivisions_x p | 1%nat => subdivisions_y p | _ => subdivisions_z p end) with (requested p).
    rewrite subdivided_ok by exact Hok. reflexivity. }
  rewrite E. clear E Hok. unfold rectangle_directions.
  assert (Q : forall (T : Prop) dd, (dd = 1 \/ dd = 2 \/ dd = 3)%nat -> (dd = dim -> T) -> (dim = dd -> T)) by (intros; auto).
  clear Q.
  destruct (periodic_direction_spec 0 (boundary_left p) (boundary_right p)) as [(X & X1 & X2)|[(X & X1 & X2)|(X & X1)]];
  destruct (periodic_direction_spec 1 (boundary_bottom p) (boundary_top p)) as [(Y & Y1 & Y2)|[(Y & Y1 & Y2)|(Y & Y1)]];
  destruct (periodic_direction_spec 2 (boundary_back p) (boundary_front p)) as [(Z0 & Z1 & Z2)|[(Z0 & Z1 & Z2)|(Z0 & Z1)]];
  assert (dim = 1 \/ dim = 2 \/ dim = 3)%nat as [-> |[-> | ->]] by lia; cbn [Nat.leb Nat.eqb];
  rewrite ?X, ?Y, ?Z0; cbn [app];
  (split; [split; [intros Hne d Hd|intros Hall]|intros b id ds Hs]);
  try (exfalso; apply Hne; reflexivity);
  try discriminate;
  try (assert (d = 0 \/ d = 1 \/ d = 2)%nat as [-> |[-> | ->]] by lia; cbn [configured]; try lia; tauto);
  try (exfalso; first [apply X1; exact (Hall 0%nat ltac:(lia))|apply Y1; exact (Hall 1%nat ltac:(lia))|apply Z1; exact (Hall 2%nat ltac:(lia))]);
  (injection Hs as <- <- <-; split;
   [repeat (apply NoDup_cons; [cbn; intuition lia|]); apply NoDup_nil|
    intros d; split;
    [intros Hin; cbn in Hin; repeat (destruct Hin as [<- |Hin]; [cbn; auto with arith|]); contradiction
    |intros (Hd & Q1 & Q2); assert (d = 0 \/ d = 1 \/ d = 2)%nat as [-> |[-> | ->]] by lia; cbn [configured] in Q1, Q2; try lia; try contradiction; cbn; auto]]).
Qed.
