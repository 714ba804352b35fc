(** * Proofs: wall, step, wave tank and cylinder *)
From Coq Require Import Reals ZArith List Bool Arith Lia Lra.
From Verif Require Import EulerSystem Geometry GeometrySpec GeometryProofs.
Import ListNotations.
Local Open Scope R_scope.

(** ** Blocks in two dimensions *)

Definition is_block (b : block) (x0 y0 x1 y1 : R) (n m : Z) : Prop :=
  (lower b 0 = x0 /\ upper b 0 = x1 /\ cells b 0 = n) /\ (lower b 1 = y0 /\ upper b 1 = y1 /\ cells b 1 = m).

Lemma block2 x0 y0 x1 y1 n m : x0 < x1 -> y0 < y1 -> (0 < n)%Z -> (0 < m)%Z ->
  exists b, subdivided_hyper_rectangle 2 (pair n m) (point x0 y0) (point x1 y1) = Some b /\ is_block b x0 y0 x1 y1 n m.
Proof.
  intros. eexists. split.
  - apply subdivided_ok. intros d Hd. assert (d = 0 \/ d = 1)%nat as [-> | ->] by lia; cbn; split; (assumption || lra).
  - unfold is_block; cbn. rewrite !Rmin_left, !Rmax_right by lra. auto.
Qed.

Lemma edge_cases b f c x0 y0 x1 y1 n m : is_block b x0 y0 x1 y1 n m -> x0 < x1 -> y0 < y1 -> (0 < n)%Z -> (0 < m)%Z ->
  is_face 2 b f -> at_edge b f -> (forall e, (e < 2)%nat -> c e = center b f e) ->
  let wx := (x1 - x0) / IZR n in let wy := (y1 - y0) / IZR m in
  (direction f = 0%nat /\ c 0%nat = (if is_upper f then x1 else x0) /\ y0 + wy / 2 <= c 1%nat <= y1 - wy / 2) \/
  (direction f = 1%nat /\ c 1%nat = (if is_upper f then y1 else y0) /\ x0 + wx / 2 <= c 0%nat <= x1 - wx / 2).
Proof.
  intros ((A1 & A2 & A3) & (B1 & B2 & B3)) Hx Hy Hn Hm [Hd Hf] He Hc wx wy.
  assert (direction f = 0 \/ direction f = 1)%nat as [E|E] by lia; [left|right]; (split; [exact E|]).
  - split.
    + rewrite Hc by lia. pose proof (center_edge b f He) as P. rewrite E, A1, A2, A3 in P. apply P. exact Hn.
    + rewrite Hc by lia. pose proof (center_mid b f 1 ltac:(rewrite E; lia) (Hf 1%nat ltac:(lia)) ltac:(lra)) as P.
      unfold width in P. rewrite B1, B2, B3 in P. exact P.
  - split.
    + rewrite Hc by lia. pose proof (center_edge b f He) as P. rewrite E, B1, B2, B3 in P. apply P. exact Hm.
    + rewrite Hc by lia. pose proof (center_mid b f 0 ltac:(rewrite E; lia) (Hf 0%nat ltac:(lia)) ltac:(lra)) as P.
      unfold width in P. rewrite A1, A2, A3 in P. exact P.
Qed.

(** A face on an interface is a face of the other block, too. *)
Lemma partner b b' f d e : is_face 2 b f -> at_edge b f -> direction f = d -> (d < 2)%nat -> (e < 2)%nat -> e <> d ->
  (0 < cells b d)%Z -> (0 < cells b' d)%Z ->
  (if is_upper f then upper b d = lower b' d else lower b d = upper b' d) ->
  (forall i, node b e i = node b' e i) -> (owner f e < cells b' e)%Z ->
  exists f', is_face 2 b' f' /\ direction f' = direction f /\ at_edge b' f' /\
    forall k, (k < 2)%nat -> extent b' f' k = extent b f k.
Proof.
  intros [Hd Hf] He Ed Hd2 He2 Hne Hn Hn' Hi Hnodes Hown.
  exists {| owner := fun k => if Nat.eqb k d then (if is_upper f then 0 else cells b' d - 1)%Z else owner f k;
            direction := d; is_upper := negb (is_upper f) |}.
  split; [|split; [|split]].
  - split; [exact Hd2|]. intros k Hk. cbn [owner].
    destruct (Nat.eqb_spec k d) as [->|Hkd]; [destruct (is_upper f); lia|].
    assert (k = e) as -> by lia. split; [apply Hf; exact Hk|exact Hown].
  - cbn. congruence.
  - unfold at_edge. cbn [is_upper owner direction]. rewrite Nat.eqb_refl. destruct (is_upper f); cbn; lia.
  - intros k Hk. unfold extent. cbn [is_upper owner direction]. rewrite Ed.
    destruct (Nat.eqb_spec k d) as [->|Hkd].
    + unfold at_edge in He. rewrite Ed in He.
      assert (G : node b' d ((if is_upper f then 0 else cells b' d - 1) + (if negb (is_upper f) then 1 else 0))
                  = node b d (owner f d + (if is_upper f then 1 else 0))).
      { destruct (is_upper f); cbn [negb].
        - rewrite He, node_n by exact Hn. cbn [Z.add]. rewrite node_0. symmetry. exact Hi.
        - rewrite He. cbn [Z.add]. replace (cells b' d - 1 + 1)%Z with (cells b' d) by lia.
          rewrite node_n, node_0 by exact Hn'. symmetry. exact Hi. }
      rewrite G. reflexivity.
    + assert (k = e) as -> by lia. rewrite !Hnodes. reflexivity.
Qed.

Lemma same_nodes b b' e : lower b e = lower b' e -> upper b e = upper b' e -> cells b e = cells b' e ->
  forall i, node b e i = node b' e i.
Proof. intros A B C i. unfold node. rewrite A, B, C. reflexivity. Qed.

(** Blocks that in every direction have the same vertices, touch, or are apart. *)
Definition compatible (b b' : block) (e : nat) : Prop :=
  (lower b e = lower b' e /\ upper b e = upper b' e /\ cells b e = cells b' e) \/ upper b e <= lower b' e \/ upper b' e <= lower b e.

Lemma node_range b e i : (0 < cells b e)%Z -> lower b e <= upper b e -> (0 <= i <= cells b e)%Z ->
  lower b e <= node b e i <= upper b e.
Proof.
  intros Hn Hl Hi. apply IZR_lt in Hn. destruct Hi as [H0 H1]. apply IZR_le in H0. apply IZR_le in H1. unfold node.
  assert (0 <= (upper b e - lower b e) / IZR (cells b e)).
  { apply Rmult_le_pos; [lra|]. apply Rlt_le, Rinv_0_lt_compat. lra. }
  assert (E : upper b e = lower b e + IZR (cells b e) * ((upper b e - lower b e) / IZR (cells b e))) by (field; lra).
  rewrite E at 3. nra.
Qed.

Lemma compatible_conforming mesh :
  (forall b, In b mesh -> forall e, (e < 2)%nat -> (0 < cells b e)%Z /\ lower b e < upper b e) ->
  (forall b b', In b mesh -> In b' mesh -> b = b' \/ forall e, (e < 2)%nat -> compatible b b' e) ->
  conforming 2 mesh.
Proof.
  intros Hg Hc b b' x Hb Hb' Hv Hin. destruct (Hc b b' Hb Hb') as [->|C]; [exact Hv|].
  intros e He. destruct (Hv e He) as (i & Hi & Hx). specialize (Hin e He).
  destruct (Hg b Hb e He) as [Hn Hl]. destruct (Hg b' Hb' e He) as [Hn' Hl'].
  pose proof (node_range b e i Hn (Rlt_le _ _ Hl) Hi) as Hr. rewrite <- Hx in Hr.
  destruct (C e He) as [(E1 & E2 & E3)|[E|E]].
  - exists i. split; [lia|]. rewrite Hx. apply same_nodes; assumption.
  - exists 0%Z. split; [lia|]. rewrite node_0. lra.
  - exists (cells b' e). split; [lia|]. rewrite node_n by exact Hn'. lra.
Qed.

(** ** The wall *)

Section Wall.
  Variables length height wall : R.
  Hypothesis Hw : 0 < wall.
  Hypothesis Hl : wall + 36 / 1000000 <= length.
  Hypothesis Hh : 12 / 1000000 <= height.

  Lemma wall_mesh_eq : exists b1 b2, wall_mesh length height wall = Some [b1; b2] /\
    is_block b1 wall 0 length height 18 6 /\ is_block b2 0 0 wall height 1 6.
  Proof using Hw Hl Hh.
    destruct (block2 wall 0 length height 18 6) as (b1 & E1 & B1); [lra|lra|lia|lia|].
    destruct (block2 0 0 wall height 1 6) as (b2 & E2 & B2); [lra|lra|lia|lia|].
    exists b1, b2. split; [|auto]. unfold wall_mesh. rewrite E1, E2. reflexivity.
  Qed.

  Lemma C138_wall_sec : exists mesh, wall_mesh length height wall = Some mesh /\ conforming 2 mesh /\
    forall c, boundary_face 2 mesh c ->
      (c 0%nat = length /\ 0 < c 1%nat < height /\ wall_id length wall c = do_nothing) \/
      (c 1%nat = 0 /\ wall < c 0%nat < length /\ wall_id length wall c = slip) \/
      ((c 0%nat = 0 \/ (c 1%nat = height /\ c 0%nat < length) \/ (c 1%nat = 0 /\ c 0%nat < wall)) /\ wall_id length wall c = dirichlet).
  Proof using Hw Hl Hh.
    destruct wall_mesh_eq as (b1 & b2 & E & B1 & B2). exists [b1; b2]. split; [exact E|].
    pose proof B1 as ((L10 & U10 & N10) & (L11 & U11 & N11)). pose proof B2 as ((L20 & U20 & N20) & (L21 & U21 & N21)).
    split.
    - apply compatible_conforming.
      + intros b [<- |[<- |[]]] e He; assert (e = 0 \/ e = 1)%nat as [-> | ->] by lia; (split; [lia|lra]).
      + intros b b' [<- |[<- |[]]] [<- |[<- |[]]]; auto; right; intros e He; assert (e = 0 \/ e = 1)%nat as [-> | ->] by lia; unfold compatible.
        * right; right. lra. * left. repeat split; (lra || lia).
        * right; left. lra. * left. repeat split; (lra || lia).
    - intros c (j & b & f & Hj & Hf & He & Hc & Hno). destruct j as [|[|j]]; [| |destruct j; discriminate Hj]; injection Hj as <-.
      + destruct (edge_cases b1 f c _ _ _ _ _ _ B1 ltac:(lra) ltac:(lra) ltac:(lia) ltac:(lia) Hf He Hc) as [(D & C0 & C1)|(D & C1 & C0)].
        * destruct (is_upper f) eqn:U.
          -- left. split; [exact C0|]. split; [lra|]. unfold wall_id. rewrite (lt_false (c 1%nat)) by lra.
             rewrite Bool.andb_false_r, lt_true by lra. reflexivity.
          -- exfalso. apply Hno. exists 1%nat, b2.
             destruct (partner b1 b2 f 0 1 Hf He D) as (f' & P1 & P2 & P3 & P4); [lia|lia|lia|lia|lia| | | |].
             ++ rewrite U. lra. ++ apply same_nodes; [lra|lra|lia]. ++ rewrite N21, <- N11. apply Hf. lia.
             ++ exists f'. auto 8.
        * destruct (is_upper f) eqn:U.
          -- right; right. split; [right; left; lra|]. unfold wall_id.
             rewrite (lt_false (c 1%nat)), Bool.andb_false_r, lt_false by lra. reflexivity.
          -- right; left. split; [exact C1|]. split; [lra|]. unfold wall_id. rewrite !lt_true by lra. reflexivity.
      + destruct (edge_cases b2 f c _ _ _ _ _ _ B2 ltac:(lra) ltac:(lra) ltac:(lia) ltac:(lia) Hf He Hc) as [(D & C0 & C1)|(D & C1 & C0)].
        * destruct (is_upper f) eqn:U.
          -- exfalso. apply Hno. exists 0%nat, b1.
             destruct (partner b2 b1 f 0 1 Hf He D) as (f' & P1 & P2 & P3 & P4); [lia|lia|lia|lia|lia| | | |].
             ++ rewrite U. lra. ++ apply same_nodes; [lra|lra|lia]. ++ rewrite N11, <- N21. apply Hf. lia.
             ++ exists f'. auto 8.
          -- right; right. split; [left; exact C0|]. unfold wall_id. rewrite !lt_false by lra. reflexivity.
        * assert (Hid : wall_id length wall c = dirichlet).
          { unfold wall_id. rewrite (lt_false wall) by lra. cbn [andb]. rewrite lt_false by lra. reflexivity. }
          right; right. split; [|exact Hid]. destruct (is_upper f); [right; left|right; right]; lra.
  Qed.
End Wall.

Lemma C138_wall_proof : forall length height wall, 0 < wall -> wall + 36 / 1000000 <= length -> 12 / 1000000 <= height ->
  exists mesh, wall_mesh length height wall = Some mesh /\ conforming 2 mesh /\
    forall c, boundary_face 2 mesh c ->
      (c 0%nat = length /\ 0 < c 1%nat < height /\ wall_id length wall c = do_nothing) \/
      (c 1%nat = 0 /\ wall < c 0%nat < length /\ wall_id length wall c = slip) \/
      ((c 0%nat = 0 \/ (c 1%nat = height /\ c 0%nat < length) \/ (c 1%nat = 0 /\ c 0%nat < wall)) /\ wall_id length wall c = dirichlet).
Proof. exact C138_wall_sec. Qed.

(** The header promises do-nothing conditions on the bottom in front of the wall. *)
Lemma C138_wall_front_refuted_proof : exists mesh c, wall_mesh (16 / 5) 1 (1 / 6) = Some mesh /\ boundary_face 2 mesh c /\
  c 1%nat = 0 /\ 0 < c 0%nat < 1 / 6 /\ wall_id (16 / 5) (1 / 6) c = dirichlet.
Proof.
  destruct (wall_mesh_eq (16 / 5) 1 (1 / 6)) as (b1 & b2 & E & B1 & B2); [lra|lra|lra|].
  pose proof B1 as ((L10 & U10 & N10) & (L11 & U11 & N11)). pose proof B2 as ((L20 & U20 & N20) & (L21 & U21 & N21)).
  pose (f := {| owner := fun _ => 0%Z; direction := 1; is_upper := false |}).
  exists [b1; b2], (center b2 f). split; [exact E|].
  assert (C1 : center b2 f 1 = 0). { unfold center, extent, f; cbn [owner direction is_upper Nat.eqb fst snd Z.add]. rewrite node_0. lra. }
  assert (C0 : center b2 f 0 = 1 / 12).
  { unfold center, extent, f; cbn [owner direction is_upper Nat.eqb fst snd Z.add]. rewrite node_0.
    unfold node. rewrite L20, U20, N20. lra. }
  split.
  - exists 1%nat, b2, f. split; [reflexivity|]. split; [|split; [|split]].
    + split; [cbn; lia|]. intros e He. assert (e = 0 \/ e = 1)%nat as [-> | ->] by lia; cbn; lia.
    + reflexivity.
    + reflexivity.
    + intros (j & b' & f' & Hj & Hb & Hf' & Hd & He & Hx). destruct j as [|[|j]]; [|lia|destruct j; discriminate Hb].
      injection Hb as <-. cbn in Hd. specialize (Hx 0%nat ltac:(lia)). unfold extent in Hx. rewrite Hd in Hx.
      cbn [owner direction is_upper Nat.eqb f Z.add] in Hx. injection Hx as Hx _. rewrite node_0 in Hx.
      pose proof (node_range b1 0 (owner f' 0%nat) ltac:(lia) ltac:(lra)) as Hr.
      destruct Hf' as [_ Hf']. specialize (Hf' 0%nat ltac:(lia)). specialize (Hr ltac:(lia)). lra.
  - split; [exact C1|]. split; [lra|]. unfold wall_id. rewrite C0, C1. rewrite (lt_false (1/6)) by lra.
    cbn [andb]. rewrite lt_false by lra. reflexivity.
Qed.

(** ** The step *)

Section Step.
  Variables length height sp sh : R.
  Hypothesis Hsp : 0 < sp < length.
  Hypothesis Hsh : 0 < sh < height.

  Lemma step_mesh_eq : exists b1 b2, step_mesh length height sp sh = Some [b1; b2] /\
    is_block b1 0 sh length height 15 4 /\ is_block b2 0 0 sp sh 3 1.
  Proof using Hsp Hsh.
    destruct (block2 0 sh length height 15 4) as (b1 & E1 & B1); [lra|lra|lia|lia|].
    destruct (block2 0 0 sp sh 3 1) as (b2 & E2 & B2); [lra|lra|lia|lia|].
    exists b1, b2. split; [|auto]. unfold step_mesh. rewrite E1, E2. reflexivity.
  Qed.

  Lemma step_nodes b1 b2 : is_block b1 0 sh length height 15 4 -> is_block b2 0 0 sp sh 3 1 -> sp = length / 5 ->
    forall i, node b1 0 i = node b2 0 i.
  Proof using.
    intros ((L10 & U10 & N10) & _) ((L20 & U20 & N20) & _) Hs i. unfold node. rewrite L10, U10, N10, L20, U20, N20, Hs. field.
  Qed.

  Lemma C138_step_conforming_sec : exists mesh, step_mesh length height sp sh = Some mesh /\
    (conforming 2 mesh <-> sp = length / 5).
  Proof using Hsp Hsh.
    destruct step_mesh_eq as (b1 & b2 & E & B1 & B2). exists [b1; b2]. split; [exact E|].
    pose proof B1 as ((L10 & U10 & N10) & (L11 & U11 & N11)). pose proof B2 as ((L20 & U20 & N20) & (L21 & U21 & N21)).
    split.
    - intros C.
      assert (V2 : forall i, (0 <= i <= 3)%Z -> exists k, (0 <= k <= 15)%Z /\ IZR i * (sp / 3) = IZR k * (length / 15)).
      { intros i Hi.
        assert (Hv : vertex 2 b2 (point (node b2 0 i) sh)).
        { intros e He. assert (e = 0 \/ e = 1)%nat as [-> | ->] by lia; cbn [point].
          - exists i. split; [lia|reflexivity].
          - exists 1%Z. split; [lia|]. unfold node; rewrite L21, U21, N21. lra. }
        pose proof (node_range b2 0 i ltac:(lia) ltac:(lra) ltac:(lia)) as Hr.
        assert (Hv' : vertex 2 b1 (point (node b2 0 i) sh)).
        { apply (C b2 b1); [right; left; reflexivity|left; reflexivity|exact Hv|].
          intros e He. assert (e = 0 \/ e = 1)%nat as [-> | ->] by lia; cbn [point]; lra. }
        destruct (Hv' 0%nat ltac:(lia)) as (k & Hk & Ek). cbn [point] in Ek. exists k. split; [lia|].
        unfold node in Ek. rewrite L10, U10, N10, L20, U20, N20 in Ek. lra. }
      assert (V1 : forall k, (0 <= k <= 15)%Z -> IZR k * (length / 15) <= sp -> exists i, (0 <= i <= 3)%Z /\ IZR k * (length / 15) = IZR i * (sp / 3)).
      { intros k Hk Hle.
        assert (Hn : node b1 0 k = IZR k * (length / 15)) by (unfold node; rewrite L10, U10, N10; lra).
        assert (Hv : vertex 2 b1 (point (node b1 0 k) sh)).
        { intros e He. assert (e = 0 \/ e = 1)%nat as [-> | ->] by lia; cbn [point].
          - exists k. split; [lia|reflexivity].
          - exists 0%Z. split; [lia|]. rewrite node_0. lra. }
        pose proof (node_range b1 0 k ltac:(lia) ltac:(lra) ltac:(lia)) as Hr.
        assert (Hv' : vertex 2 b2 (point (node b1 0 k) sh)).
        { apply (C b1 b2); [left; reflexivity|right; left; reflexivity|exact Hv|].
          intros e He. assert (e = 0 \/ e = 1)%nat as [-> | ->] by lia; cbn [point]; lra. }
        destruct (Hv' 0%nat ltac:(lia)) as (i & Hi & Ei). cbn [point] in Ei. exists i. split; [lia|].
        rewrite <- Hn, Ei. unfold node. rewrite L20, U20, N20. lra. }
      destruct (V2 1%Z ltac:(lia)) as (k & Hk & Ek).
      assert (Kpos : (1 <= k)%Z).
      { destruct (Z.eq_dec k 0) as [->|]; [|lia]. lra. }
      assert (H1 : 1 * (length / 15) <= sp).
      { apply IZR_le in Kpos. assert (1 * (length / 15) <= IZR k * (length / 15)) by (apply Rmult_le_compat_r; lra). lra. }
      destruct (V1 1%Z ltac:(lia) H1) as (i & Hi & Ei).
      assert (i = 0 \/ i = 1 \/ i = 2 \/ i = 3)%Z as [-> |[-> |[-> | ->]]] by lia; [lra|lra| |].
      + exfalso. assert (IZR k * (length / 15) = 1 / 2 * (length / 15)) by lra.
        apply Rmult_eq_reg_r in H; [|lra]. apply IZR_le in Kpos. lra.
      + exfalso. assert (IZR k * (length / 15) = 1 / 3 * (length / 15)) by lra.
        apply Rmult_eq_reg_r in H; [|lra]. apply IZR_le in Kpos. lra.
    - intros Hs. pose proof (step_nodes b1 b2 B1 B2 Hs) as Hnod.
      intros b b' x Hb Hb' Hv Hin e He.
      destruct Hb as [<- |[<- |[]]]; destruct Hb' as [<- |[<- |[]]].
      + apply Hv; exact He.
      + assert (e = 0 \/ e = 1)%nat as [-> | ->] by lia.
        * destruct (Hv 0%nat He) as (i & Hi & Hx). exists i. split; [|rewrite Hx; apply Hnod].
          split; [lia|]. rewrite N20. specialize (Hin 0%nat He). rewrite Hx, U20 in Hin. unfold node in Hin. rewrite L10, U10, N10 in Hin.
          apply le_IZR. apply (Rmult_le_reg_r (length / 15)); lra.
        * exists 1%Z. split; [lia|]. unfold node; rewrite L21, U21, N21.
          destruct (Hv 1%nat He) as (i & Hi & Hx). pose proof (node_range b1 1 i ltac:(lia) ltac:(lra) Hi). specialize (Hin 1%nat He). lra.
      + assert (e = 0 \/ e = 1)%nat as [-> | ->] by lia.
        * destruct (Hv 0%nat He) as (i & Hi & Hx). exists i. split; [lia|rewrite Hx; symmetry; apply Hnod].
        * exists 0%Z. split; [lia|]. rewrite node_0.
          destruct (Hv 1%nat He) as (i & Hi & Hx). pose proof (node_range b2 1 i ltac:(lia) ltac:(lra) Hi). specialize (Hin 1%nat He). lra.
      + apply Hv; exact He.
  Qed.

  Lemma C138_step_sec : sp = length / 5 -> 30 / 1000000 < length -> exists mesh, step_mesh length height sp sh = Some mesh /\
    forall c, boundary_face 2 mesh c ->
      (c 0%nat = 0 /\ 0 < c 1%nat < height /\ step_id length c = dirichlet) \/
      (c 0%nat = length /\ sh < c 1%nat < height /\ step_id length c = do_nothing) \/
      (((c 1%nat = height /\ 0 < c 0%nat < length) \/ (c 1%nat = 0 /\ 0 < c 0%nat < sp) \/
        (c 0%nat = sp /\ 0 < c 1%nat < sh) \/ (c 1%nat = sh /\ sp < c 0%nat < length)) /\ step_id length c = slip).
  Proof using Hsp Hsh.
    intros Hs Hsz. destruct step_mesh_eq as (b1 & b2 & E & B1 & B2). exists [b1; b2]. split; [exact E|].
    pose proof (step_nodes b1 b2 B1 B2 Hs) as Hnod.
    pose proof B1 as ((L10 & U10 & N10) & (L11 & U11 & N11)). pose proof B2 as ((L20 & U20 & N20) & (L21 & U21 & N21)).
    assert (Slip : forall c, / 1000000 < c 0%nat < length - / 1000000 -> step_id length c = slip).
    { intros c Hc. unfold step_id. cbv zeta. rewrite (lt_true (0 + / 1000000)), (lt_true (c 0%nat) (length - _)), lt_false by lra. reflexivity. }
    assert (Left : forall c, c 0%nat = 0 -> step_id length c = dirichlet).
    { intros c Hc. unfold step_id. cbv zeta. rewrite (lt_true (c 0%nat) (0 + / 1000000)) by lra. reflexivity. }
    assert (Right : forall c, c 0%nat = length -> step_id length c = do_nothing).
    { intros c Hc. unfold step_id. cbv zeta. rewrite (lt_false (c 0%nat) (length - / 1000000)), Bool.andb_false_r, lt_false by lra. reflexivity. }
    intros c (j & b & f & Hj & Hf & He & Hc & Hno). destruct j as [|[|j]]; [| |destruct j; discriminate Hj]; injection Hj as <-.
    - destruct (edge_cases b1 f c _ _ _ _ _ _ B1 ltac:(lra) ltac:(lra) ltac:(lia) ltac:(lia) Hf He Hc) as [(D & C0 & C1)|(D & C1 & C0)].
      + destruct (is_upper f) eqn:U; [right; left|left]; (split; [exact C0|]); (split; [lra|auto]).
      + destruct (is_upper f) eqn:U.
        * right; right. split; [left; lra|]. apply Slip. lra.
        * destruct (Z_lt_le_dec (owner f 0%nat) 3) as [Hlt|Hge].
          -- exfalso. apply Hno. exists 1%nat, b2.
             destruct (partner b1 b2 f 1 0 Hf He D) as (f' & P1 & P2 & P3 & P4); [lia|lia|lia|lia|lia| | | |].
             ++ rewrite U. lra. ++ exact Hnod. ++ lia.
             ++ exists f'. auto 8.
          -- right; right. assert (Hx : sp < c 0%nat).
             { rewrite Hc by lia. unfold center, extent. rewrite D. cbn [Nat.eqb fst snd]. unfold node. rewrite L10, U10, N10, plus_IZR.
               apply IZR_le in Hge. assert (3 * (length / 15) <= IZR (owner f 0%nat) * (length / 15)) by (apply Rmult_le_compat_r; lra). lra. }
             split; [right; right; right; lra|]. apply Slip. lra.
    - destruct (edge_cases b2 f c _ _ _ _ _ _ B2 ltac:(lra) ltac:(lra) ltac:(lia) ltac:(lia) Hf He Hc) as [(D & C0 & C1)|(D & C1 & C0)].
      + destruct (is_upper f) eqn:U.
        * right; right. split; [right; right; left; lra|]. apply Slip. lra.
        * left. split; [exact C0|]. split; [lra|auto].
      + destruct (is_upper f) eqn:U.
        * exfalso. apply Hno. exists 0%nat, b1.
          destruct (partner b2 b1 f 1 0 Hf He D) as (f' & P1 & P2 & P3 & P4); [lia|lia|lia|lia|lia| | | |].
          -- rewrite U. lra. -- intros i. symmetry. apply Hnod.
          -- destruct Hf as [_ Hf]. specialize (Hf 0%nat ltac:(lia)). lia.
          -- exists f'. auto 8.
        * right; right. split; [right; left; lra|]. apply Slip. lra.
  Qed.
End Step.

Lemma C138_step_conforming_proof : forall length height sp sh, 0 < sp < length -> 0 < sh < height ->
  exists mesh, step_mesh length height sp sh = Some mesh /\ (conforming 2 mesh <-> sp = length / 5).
Proof. exact C138_step_conforming_sec. Qed.

Lemma C138_step_proof : forall length height sp sh, 0 < sp < length -> 0 < sh < height ->
  sp = length / 5 -> 30 / 1000000 < length -> exists mesh, step_mesh length height sp sh = Some mesh /\
    forall c, boundary_face 2 mesh c ->
      (c 0%nat = 0 /\ 0 < c 1%nat < height /\ step_id length c = dirichlet) \/
      (c 0%nat = length /\ sh < c 1%nat < height /\ step_id length c = do_nothing) \/
      (((c 1%nat = height /\ 0 < c 0%nat < length) \/ (c 1%nat = 0 /\ 0 < c 0%nat < sp) \/
        (c 0%nat = sp /\ 0 < c 1%nat < sh) \/ (c 1%nat = sh /\ sp < c 0%nat < length)) /\ step_id length c = slip).
Proof. exact C138_step_sec. Qed.

(** A slip wall across the channel if the step is somewhere else. *)
Lemma C138_step_position_refuted_proof : exists mesh c, step_mesh 3 1 1 (1 / 5) = Some mesh /\ boundary_face 2 mesh c /\
  c 1%nat = 1 / 5 /\ 0 < c 0%nat < 1 /\ step_id 3 c = slip.
Proof.
  destruct (step_mesh_eq 3 1 1 (1 / 5)) as (b1 & b2 & E & B1 & B2); [lra|lra|].
  pose proof B1 as ((L10 & U10 & N10) & (L11 & U11 & N11)). pose proof B2 as ((L20 & U20 & N20) & (L21 & U21 & N21)).
  pose (f := {| owner := fun _ => 0%Z; direction := 1; is_upper := true |}).
  exists [b1; b2], (center b2 f). split; [exact E|].
  assert (C1 : center b2 f 1 = 1 / 5).
  { unfold center, extent, f; cbn [owner direction is_upper Nat.eqb fst snd Z.add]. unfold node. rewrite L21, U21, N21. lra. }
  assert (C0 : center b2 f 0 = 1 / 6).
  { unfold center, extent, f; cbn [owner direction is_upper Nat.eqb fst snd Z.add]. unfold node. rewrite L20, U20, N20. lra. }
  split.
  - exists 1%nat, b2, f. split; [reflexivity|]. split; [|split; [|split]].
    + split; [cbn; lia|]. intros e He. assert (e = 0 \/ e = 1)%nat as [-> | ->] by lia; cbn; lia.
    + cbn. lia.
    + reflexivity.
    + intros (j & b' & f' & Hj & Hb & Hf' & Hd & He & Hx). destruct j as [|[|j]]; [|lia|destruct j; discriminate Hb].
      injection Hb as <-. cbn in Hd. specialize (Hx 0%nat ltac:(lia)). unfold extent in Hx. rewrite Hd in Hx.
      cbn [owner direction is_upper Nat.eqb f Z.add] in Hx. injection Hx as Hx Hy.
      unfold node in Hx, Hy. rewrite ?L10, ?U10, ?N10, ?L20, ?U20, ?N20 in Hx, Hy. rewrite plus_IZR in Hy. lra.
  - split; [exact C1|]. split; [lra|]. unfold step_id. cbv zeta. rewrite C0.
    rewrite (lt_true (0 + / 1000000)), (lt_true (1/6) (3 - _)), lt_false by lra. reflexivity.
Qed.

(** The rounded corner. *)
Definition distance2 (a b : R * R) : R := (fst a - fst b) * (fst a - fst b) + (snd a - snd b) * (snd a - snd b).

Lemma offset_bounds : 0.003 < corner_offset < 0.005 /\ (125 / 10000 - corner_offset) * (125 / 10000 - corner_offset) = 125 / 10000 * (125 / 10000) / 2.
Proof.
  unfold corner_offset. set (s := sqrt (1 / 2)). assert (S : s * s = 1 / 2) by (apply sqrt_sqrt; lra).
  assert (0 <= s) by apply sqrt_pos. split; nra.
Qed.

Lemma C138_corner_proof : forall sp sh,
  (let p := round_corner sp sh (sp, sh) in
   (fst p - fst (corner_circle sp sh)) * (fst p - fst (corner_circle sp sh)) +
   (snd p - snd (corner_circle sp sh)) * (snd p - snd (corner_circle sp sh)) = 125 / 10000 * (125 / 10000) /\
   sp < fst p /\ snd p < sh) /\
  (forall v, round_corner sp sh (round_corner sp sh v) = round_corner sp sh v) /\
  (forall y, y <= sh - / 1000000 -> round_corner sp sh (sp, y) = (sp, y)) /\
  (forall x, sp + 5 / 1000 <= x -> round_corner sp sh (x, sh) = (x, sh)).
Proof.
  intros sp sh. destruct offset_bounds as [[O1 O2] O3].
  assert (Z0 : Rabs (sp - sp) = 0) by (rewrite Rminus_diag_eq, Rabs_R0; reflexivity).
  assert (Z1 : Rabs (sh - sh) = 0) by (rewrite Rminus_diag_eq, Rabs_R0; reflexivity).
  split; [|split; [|split]].
  - cbv zeta. unfold round_corner, corner_circle. rewrite Z0, Z1.
    rewrite (lt_true 0 (/ 1000000)), (lt_true (sh - / 1000000) sh) by lra. cbn [andb]. rewrite lt_true by lra. cbn [fst snd]. split; [nra|lra].
  - intros [x y]. unfold round_corner.
    assert (Big : forall a, Rabs (a + corner_offset - a) = corner_offset /\ Rabs (a - corner_offset - a) = corner_offset).
    { intros a. split; [replace (a + corner_offset - a) with corner_offset by ring; apply Rabs_right; lra|].
      replace (a - corner_offset - a) with (- corner_offset) by ring. rewrite Rabs_Ropp. apply Rabs_right. lra. }
    destruct (lt (Rabs (x - sp)) (/ 1000000) && lt (sh - / 1000000) y) eqn:E1.
    + destruct (lt (Rabs (y - sh)) (/ 1000000) && lt (sp + corner_offset) (sp + 5 / 1000)) eqn:E2.
      * rewrite (proj1 (Big sp)), (proj2 (Big sh)), !(lt_false corner_offset) by lra. cbn [andb]. reflexivity.
      * rewrite (proj1 (Big sp)), (lt_false corner_offset) by lra. cbn [andb]. rewrite E2. reflexivity.
    + destruct (lt (Rabs (y - sh)) (/ 1000000) && lt x (sp + 5 / 1000)) eqn:E2.
      * rewrite (proj2 (Big sh)), (lt_false corner_offset), (lt_false (sh - / 1000000)) by lra. rewrite Bool.andb_false_r. reflexivity.
      * rewrite E1, E2. reflexivity.
  - intros y Hy. unfold round_corner. rewrite Z0, (lt_false (sh - / 1000000)) by lra. rewrite Bool.andb_false_r.
    rewrite (lt_false (Rabs (y - sh))); [reflexivity|]. rewrite Rabs_left1 by lra. lra.
  - intros x Hx. unfold round_corner. rewrite (lt_false (Rabs (x - sp))) by (rewrite Rabs_right; lra). cbn [andb].
    rewrite (lt_false x), Bool.andb_false_r by lra. reflexivity.
Qed.

Lemma C138_arc_proof : forall length sp sh,
  ((sp + length / 15 / 16 - fst (corner_circle sp sh)) * (sp + length / 15 / 16 - fst (corner_circle sp sh)) +
   (sh - snd (corner_circle sp sh)) * (sh - snd (corner_circle sp sh)) = 125 / 10000 * (125 / 10000) <-> length = 3) /\
  ((sp - fst (corner_circle sp sh)) * (sp - fst (corner_circle sp sh)) +
   (sh - sh / 1 / 16 - snd (corner_circle sp sh)) * (sh - sh / 1 / 16 - snd (corner_circle sp sh)) = 125 / 10000 * (125 / 10000) <-> sh = 1 / 5).
Proof.
  intros length sp sh. unfold corner_circle; cbn [fst snd]. split; split; intros H.
  - assert (Q : (length / 240 - 1 / 80) * (length / 240 - 1 / 80) = 0) by lra. apply Rmult_integral in Q. lra.
  - subst length. lra.
  - assert (Q : (sh / 16 - 1 / 80) * (sh / 16 - 1 / 80) = 0) by lra. apply Rmult_integral in Q. lra.
  - subst sh. lra.
Qed.

(** ** The wave tank *)

Lemma abs_inv x e : Rabs x <= e -> - e <= x <= e.
Proof. unfold Rabs. destruct (Rcase_abs x); lra. Qed.

Lemma c_round_spec x : Rabs (IZR (c_round x) - x) <= / 2.
Proof.
  unfold c_round. destruct (Rle_dec 0 x) as [H|H].
  - pose proof (base_Int_part (x + / 2)) as [A B]. apply Rabs_le. lra.
  - pose proof (base_Int_part (- x + / 2)) as [A B]. rewrite opp_IZR. apply Rabs_le. lra.
Qed.

Lemma subdivisions_pos x n : 0 < x -> subdivisions x = Some n -> (0 <= n)%Z /\ Rabs (IZR n - x) <= / 2.
Proof.
  intros Hx. unfold subdivisions. pose proof (c_round_spec x) as R.
  assert (P : (0 <= c_round x)%Z).
  { apply abs_inv in R. assert (-1 < c_round x)%Z by (apply lt_IZR; lra). lia. }
  destruct ((_ <=? _) && _)%Z eqn:E; intros H; [|discriminate H]. injection H as <-.
  apply andb_prop in E. destruct E as [_ E]. apply Z.leb_le in E. rewrite Z.mod_small by lia. auto.
Qed.

Lemma subdivided2_some n m x0 y0 x1 y1 b : subdivided_hyper_rectangle 2 (pair n m) (point x0 y0) (point x1 y1) = Some b ->
  x0 < x1 -> y0 < y1 -> (0 < n)%Z /\ (0 < m)%Z /\ is_block b x0 y0 x1 y1 n m.
Proof.
  intros H Hx Hy. apply subdivided_some in H. destruct H as [A ->].
  destruct (A 0%nat ltac:(lia)) as [A0 _]. destruct (A 1%nat ltac:(lia)) as [A1 _]. cbn in A0, A1.
  split; [exact A0|]. split; [exact A1|]. unfold is_block; cbn. rewrite !Rmin_left, !Rmax_right by lra. auto.
Qed.

Lemma width_ok L n : (0 < n)%Z -> Rabs (IZR n - L * 100) <= / 2 -> 1 / 200 <= L / IZR n <= 3 / 200.
Proof.
  intros Hn H. apply abs_inv in H. assert (1 <= IZR n) by (apply IZR_le; lia).
  split; apply (Rmult_le_reg_r (IZR n)); try lra; unfold Rdiv; rewrite ?(Rmult_assoc L), ?Rinv_l by lra; lra.
Qed.

Section Tank.
  Variables rl rw fl fw : R.
  Hypothesis Hrl : 0 < rl.
  Hypothesis Hfl : 0 < fl.
  Hypothesis Hfw : 0 < fw < rw.
  Variable mesh : list block.
  Hypothesis Hm : tank_mesh rl rw fl fw = Some mesh.

  Lemma tank_blocks : exists b1 b2 b3 b4 nr nd nw nf, mesh = [b1; b2; b3; b4] /\
    is_block b1 (- rl) (- rw / 2) 0 (- fw / 2) nr nd /\ is_block b2 (- rl) (- fw / 2) 0 (fw / 2) nr nw /\
    is_block b3 (- rl) (fw / 2) 0 (rw / 2) nr nd /\ is_block b4 0 (- fw / 2) fl (fw / 2) nf nw /\
    (0 < nr)%Z /\ (0 < nd)%Z /\ (0 < nw)%Z /\ (0 < nf)%Z /\
    1 / 200 <= rl / IZR nr <= 3 / 200 /\ 1 / 200 <= (rw - fw) / 2 / IZR nd <= 3 / 200 /\
    1 / 200 <= fw / IZR nw <= 3 / 200 /\ 1 / 200 <= fl / IZR nf <= 3 / 200.
  Proof using Hrl Hfl Hfw Hm.
    clear - Hrl Hfl Hfw Hm. unfold tank_mesh in Hm.
    destruct (subdivisions (rl * 100)) as [nr|] eqn:S1; [|discriminate Hm].
    destruct (subdivisions ((rw - fw) / 2 * 100)) as [nd|] eqn:S2; [|discriminate Hm].
    destruct (subdivisions (fw * 100)) as [nw|] eqn:S3; [|discriminate Hm].
    destruct (subdivisions (fl * 100)) as [nf|] eqn:S4; [|discriminate Hm].
    apply subdivisions_pos in S1; [|lra]. apply subdivisions_pos in S2; [|lra].
    apply subdivisions_pos in S3; [|lra]. apply subdivisions_pos in S4; [|lra].
    cbn [merge] in Hm.
    match type of Hm with match ?e with _ => _ end = _ => destruct e as [b1|] eqn:E1; [|discriminate Hm] end.
    match type of Hm with match match ?e with _ => _ end with _ => _ end = _ => destruct e as [b2|] eqn:E2; [|discriminate Hm] end.
    match type of Hm with match match match ?e with _ => _ end with _ => _ end with _ => _ end = _ => destruct e as [b3|] eqn:E3; [|discriminate Hm] end.
    match type of Hm with match match match match ?e with _ => _ end with _ => _ end with _ => _ end with _ => _ end = _ => destruct e as [b4|] eqn:E4; [|discriminate Hm] end.
    injection Hm as <-.
    apply subdivided2_some in E1; [|lra|lra]. apply subdivided2_some in E2; [|lra|lra].
    apply subdivided2_some in E3; [|lra|lra]. apply subdivided2_some in E4; [|lra|lra].
    destruct E1 as (P1 & P2 & B1), E2 as (_ & P3 & B2), E3 as (_ & _ & B3), E4 as (P4 & _ & B4).
    exists b1, b2, b3, b4, nr, nd, nw, nf. split; [reflexivity|].
    repeat (split; [first [assumption|apply width_ok; [assumption|apply S1 || apply S2 || apply S3]]|]).
    apply width_ok; [assumption|apply S4].
  Qed.

  Lemma C138_tank_cells_sec : forall b d, In b mesh -> (d < 2)%nat -> 1 / 200 <= width b d <= 3 / 200.
  Proof using Hrl Hfl Hfw Hm.
    intros b d Hb Hd.
    destruct tank_blocks as (b1 & b2 & b3 & b4 & nr & nd & nw & nf & -> & B1 & B2 & B3 & B4 & P1 & P2 & P3 & P4 & W1 & W2 & W3 & W4).
    clear Hm.
    destruct B1 as ((L10 & U10 & N10) & (L11 & U11 & N11)), B2 as ((L20 & U20 & N20) & (L21 & U21 & N21)),
      B3 as ((L30 & U30 & N30) & (L31 & U31 & N31)), B4 as ((L40 & U40 & N40) & (L41 & U41 & N41)).
    unfold width.
    destruct Hb as [<- |[<- |[<- |[<- |[]]]]]; assert (d = 0 \/ d = 1)%nat as [-> | ->] by lia;
      rewrite ?L10, ?U10, ?N10, ?L11, ?U11, ?N11, ?L20, ?U20, ?N20, ?L21, ?U21, ?N21, ?L30, ?U30, ?N30, ?L31, ?U31, ?N31, ?L40, ?U40, ?N40, ?L41, ?U41, ?N41.
    - replace (0 - - rl) with rl by ring; exact W1.
    - replace (- fw / 2 - - rw / 2) with ((rw - fw) / 2) by field; exact W2.
    - replace (0 - - rl) with rl by ring; exact W1.
    - replace (fw / 2 - - fw / 2) with fw by field; exact W3.
    - replace (0 - - rl) with rl by ring; exact W1.
    - replace (rw / 2 - fw / 2) with ((rw - fw) / 2) by field; exact W2.
    - replace (fl - 0) with fl by ring; exact W4.
    - replace (fw / 2 - - fw / 2) with fw by field; exact W3.
  Qed.

  Lemma C138_tank_conforming_sec : conforming 2 mesh.
  Proof using Hrl Hfl Hfw Hm.
    destruct tank_blocks as (b1 & b2 & b3 & b4 & nr & nd & nw & nf & -> & B1 & B2 & B3 & B4 & P1 & P2 & P3 & P4 & _).
    clear Hm.
    destruct B1 as ((L10 & U10 & N10) & (L11 & U11 & N11)), B2 as ((L20 & U20 & N20) & (L21 & U21 & N21)),
      B3 as ((L30 & U30 & N30) & (L31 & U31 & N31)), B4 as ((L40 & U40 & N40) & (L41 & U41 & N41)).
    apply compatible_conforming.
    - intros b [<- |[<- |[<- |[<- |[]]]]] e He; assert (e = 0 \/ e = 1)%nat as [-> | ->] by lia; (split; [lia|lra]).
    - intros b b' [<- |[<- |[<- |[<- |[]]]]] [<- |[<- |[<- |[<- |[]]]]]; auto; right; intros e He;
        assert (e = 0 \/ e = 1)%nat as [-> | ->] by lia; unfold compatible;
        first [left; repeat split; [lra|lra|lia]|right; left; lra|right; right; lra].
  Qed.

  Lemma C138_tank_sec : forall c, boundary_face 2 mesh c ->
    (c 0%nat = fl /\ - fw / 2 < c 1%nat < fw / 2 /\ tank_id fl c = dynamic) \/
    (((c 0%nat = - rl /\ - rw / 2 < c 1%nat < rw / 2) \/ ((c 1%nat = - rw / 2 \/ c 1%nat = rw / 2) /\ - rl < c 0%nat < 0) \/
      (c 0%nat = 0 /\ (- rw / 2 < c 1%nat < - fw / 2 \/ fw / 2 < c 1%nat < rw / 2)) \/
      ((c 1%nat = - fw / 2 \/ c 1%nat = fw / 2) /\ 0 < c 0%nat < fl)) /\ tank_id fl c = slip).
  Proof using Hrl Hfl Hfw Hm.
    destruct tank_blocks as (b1 & b2 & b3 & b4 & nr & nd & nw & nf & -> & B1 & B2 & B3 & B4 & P1 & P2 & P3 & P4 & W1 & W2 & W3 & W4).
    clear Hm.
    pose proof B1 as ((L10 & U10 & N10) & (L11 & U11 & N11)). pose proof B2 as ((L20 & U20 & N20) & (L21 & U21 & N21)).
    pose proof B3 as ((L30 & U30 & N30) & (L31 & U31 & N31)). pose proof B4 as ((L40 & U40 & N40) & (L41 & U41 & N41)).
    assert (F0 : 1 / 200 <= fl).
    { assert (1 <= IZR nf) by (apply IZR_le; lia). assert (fl = fl / IZR nf * IZR nf) by (field; lra). nra. }
    assert (Sl : forall c, c 0%nat <= fl - / 100000000 -> tank_id fl c = slip).
    { intros c H. unfold tank_id. rewrite lt_false by lra. reflexivity. }
    assert (Dy : forall c, c 0%nat = fl -> tank_id fl c = dynamic).
    { intros c H. unfold tank_id. rewrite lt_true by lra. reflexivity. }
    assert (X1 : (0 - - rl) / IZR nr = rl / IZR nr) by (f_equal; ring).
    assert (X2 : (- fw / 2 - - rw / 2) / IZR nd = (rw - fw) / 2 / IZR nd) by (f_equal; field).
    assert (X3 : (rw / 2 - fw / 2) / IZR nd = (rw - fw) / 2 / IZR nd) by (f_equal; field).
    assert (X4 : (fw / 2 - - fw / 2) / IZR nw = fw / IZR nw) by (f_equal; field).
    assert (X5 : (fl - 0) / IZR nf = fl / IZR nf) by (f_equal; ring).
    intros c (j & b & f & Hj & Hf & He & Hc & Hno).
    destruct j as [|[|[|[|j]]]]; [| | | |destruct j; discriminate Hj]; injection Hj as <-.
    - destruct (edge_cases b1 f c _ _ _ _ _ _ B1 ltac:(lra) ltac:(lra) P1 P2 Hf He Hc) as [(D & C0 & C1)|(D & C1 & C0)];
        rewrite ?X1, ?X2 in *; destruct (is_upper f) eqn:U.
      + right. split; [right; right; left; lra|apply Sl; lra].
      + right. split; [left; lra|apply Sl; lra].
      + exfalso. apply Hno. exists 1%nat, b2.
        destruct (partner b1 b2 f 1 0 Hf He D) as (f' & Q1 & Q2 & Q3 & Q4); [lia|lia|lia|lia|lia| | | |exists f'; auto 8].
        * rewrite U. lra. * apply same_nodes; [lra|lra|lia]. * destruct Hf as [_ Hf]. specialize (Hf 0%nat ltac:(lia)). lia.
      + right. split; [right; left; lra|apply Sl; lra].
    - destruct (edge_cases b2 f c _ _ _ _ _ _ B2 ltac:(lra) ltac:(lra) P1 P3 Hf He Hc) as [(D & C0 & C1)|(D & C1 & C0)];
        rewrite ?X1, ?X4 in *; destruct (is_upper f) eqn:U.
      + exfalso. apply Hno. exists 3%nat, b4.
        destruct (partner b2 b4 f 0 1 Hf He D) as (f' & Q1 & Q2 & Q3 & Q4); [lia|lia|lia|lia|lia| | | |exists f'; auto 8].
        * rewrite U. lra. * apply same_nodes; [lra|lra|lia]. * destruct Hf as [_ Hf]. specialize (Hf 1%nat ltac:(lia)). lia.
      + right. split; [left; lra|apply Sl; lra].
      + exfalso. apply Hno. exists 2%nat, b3.
        destruct (partner b2 b3 f 1 0 Hf He D) as (f' & Q1 & Q2 & Q3 & Q4); [lia|lia|lia|lia|lia| | | |exists f'; auto 8].
        * rewrite U. lra. * apply same_nodes; [lra|lra|lia]. * destruct Hf as [_ Hf]. specialize (Hf 0%nat ltac:(lia)). lia.
      + exfalso. apply Hno. exists 0%nat, b1.
        destruct (partner b2 b1 f 1 0 Hf He D) as (f' & Q1 & Q2 & Q3 & Q4); [lia|lia|lia|lia|lia| | | |exists f'; auto 8].
        * rewrite U. lra. * apply same_nodes; [lra|lra|lia]. * destruct Hf as [_ Hf]. specialize (Hf 0%nat ltac:(lia)). lia.
    - destruct (edge_cases b3 f c _ _ _ _ _ _ B3 ltac:(lra) ltac:(lra) P1 P2 Hf He Hc) as [(D & C0 & C1)|(D & C1 & C0)];
        rewrite ?X1, ?X3 in *; destruct (is_upper f) eqn:U.
      + right. split; [right; right; left; lra|apply Sl; lra].
      + right. split; [left; lra|apply Sl; lra].
      + right. split; [right; left; lra|apply Sl; lra].
      + exfalso. apply Hno. exists 1%nat, b2.
        destruct (partner b3 b2 f 1 0 Hf He D) as (f' & Q1 & Q2 & Q3 & Q4); [lia|lia|lia|lia|lia| | | |exists f'; auto 8].
        * rewrite U. lra. * apply same_nodes; [lra|lra|lia]. * destruct Hf as [_ Hf]. specialize (Hf 0%nat ltac:(lia)). lia.
    - destruct (edge_cases b4 f c _ _ _ _ _ _ B4 ltac:(lra) ltac:(lra) P4 P3 Hf He Hc) as [(D & C0 & C1)|(D & C1 & C0)];
        rewrite ?X5, ?X4 in *; destruct (is_upper f) eqn:U.
      + left. split; [exact C0|]. split; [lra|apply Dy; exact C0].
      + exfalso. apply Hno. exists 1%nat, b2.
        destruct (partner b4 b2 f 0 1 Hf He D) as (f' & Q1 & Q2 & Q3 & Q4); [lia|lia|lia|lia|lia| | | |exists f'; auto 8].
        * rewrite U. lra. * apply same_nodes; [lra|lra|lia]. * destruct Hf as [_ Hf]. specialize (Hf 1%nat ltac:(lia)). lia.
      + right. split; [right; right; right; lra|apply Sl; lra].
      + right. split; [right; right; right; lra|apply Sl; lra].
  Qed.
End Tank.

Lemma C138_tank_proof : forall rl rw fl fw mesh, 0 < rl -> 0 < fl -> 0 < fw < rw -> tank_mesh rl rw fl fw = Some mesh ->
  conforming 2 mesh /\ (forall b d, In b mesh -> (d < 2)%nat -> 1 / 200 <= width b d <= 3 / 200) /\
  forall c, boundary_face 2 mesh c ->
    (c 0%nat = fl /\ - fw / 2 < c 1%nat < fw / 2 /\ tank_id fl c = dynamic) \/
    (((c 0%nat = - rl /\ - rw / 2 < c 1%nat < rw / 2) \/ ((c 1%nat = - rw / 2 \/ c 1%nat = rw / 2) /\ - rl < c 0%nat < 0) \/
      (c 0%nat = 0 /\ (- rw / 2 < c 1%nat < - fw / 2 \/ fw / 2 < c 1%nat < rw / 2)) \/
      ((c 1%nat = - fw / 2 \/ c 1%nat = fw / 2) /\ 0 < c 0%nat < fl)) /\ tank_id fl c = slip).
Proof.
  intros rl rw fl fw mesh Hrl Hfl Hfw Hm. split; [|split].
  - exact (C138_tank_conforming_sec rl rw fl fw Hrl Hfl Hfw mesh Hm).
  - exact (C138_tank_cells_sec rl rw fl fw Hrl Hfl Hfw mesh Hm).
  - exact (C138_tank_sec rl rw fl fw Hrl Hfl Hfw mesh Hm).
Qed.
