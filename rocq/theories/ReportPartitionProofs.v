(** * Proofs: the report on the partition *)
From Coq Require Import Reals ZArith String List Bool Arith Lia Lra.
From Verif Require Import Report ReportPartition ReportPartitionSpec.
Import ListNotations.
Local Open Scope R_scope.

Lemma arg_min_spec r : forall pre m k i, i = length pre -> first_smallest pre m k ->
  first_smallest (pre ++ r) (fst (arg_min i m k r)) (snd (arg_min i m k r)).
Proof.
  induction r as [|x r IH]; intros pre m k i Hi H; cbn [arg_min].
  - rewrite app_nil_r. exact H.
  - assert (HI : S i = length (pre ++ [x])) by (rewrite app_length; cbn; lia).
    replace (pre ++ x :: r)%list with ((pre ++ [x]) ++ r)%list by (rewrite <- app_assoc; reflexivity).
    destruct H as (H1 & H2 & H3).
    assert (Hk : (k < length pre)%nat) by (apply nth_error_Some; rewrite H1; discriminate).
    destruct (Rlt_dec x m) as [L|L]; apply IH; try exact HI.
    + repeat split.
      * rewrite nth_error_app2, Hi, Nat.sub_diag by lia. reflexivity.
      * intros j y Hy. destruct (Nat.lt_ge_cases j (length pre)) as [B|B].
        -- rewrite nth_error_app1 in Hy by exact B. apply H2 in Hy. lra.
        -- rewrite nth_error_app2 in Hy by exact B. destruct (j - length pre)%nat as [|n]; cbn in Hy.
           ++ injection Hy as <-. lra.
           ++ destruct n; discriminate.
      * intros j y B Hy. rewrite nth_error_app1 in Hy by lia. apply H2 in Hy. lra.
    + repeat split.
      * rewrite nth_error_app1 by exact Hk. exact H1.
      * intros j y Hy. destruct (Nat.lt_ge_cases j (length pre)) as [B|B].
        -- rewrite nth_error_app1 in Hy by exact B. apply H2 in Hy. lra.
        -- rewrite nth_error_app2 in Hy by exact B. destruct (j - length pre)%nat as [|n]; cbn in Hy.
           ++ injection Hy as <-. lra.
           ++ destruct n; discriminate.
      * intros j y B Hy. rewrite nth_error_app1 in Hy by lia. exact (H3 j y B Hy).
Qed.
Lemma arg_max_spec r : forall pre m k i, i = length pre -> first_largest pre m k ->
  first_largest (pre ++ r) (fst (arg_max i m k r)) (snd (arg_max i m k r)).
Proof.
  induction r as [|x r IH]; intros pre m k i Hi H; cbn [arg_max].
  - rewrite app_nil_r. exact H.
  - assert (HI : S i = length (pre ++ [x])) by (rewrite app_length; cbn; lia).
    replace (pre ++ x :: r)%list with ((pre ++ [x]) ++ r)%list by (rewrite <- app_assoc; reflexivity).
    destruct H as (H1 & H2 & H3).
    assert (Hk : (k < length pre)%nat) by (apply nth_error_Some; rewrite H1; discriminate).
    destruct (Rlt_dec m x) as [L|L]; apply IH; try exact HI.
    + repeat split.
      * rewrite nth_error_app2, Hi, Nat.sub_diag by lia. reflexivity.
      * intros j y Hy. destruct (Nat.lt_ge_cases j (length pre)) as [B|B].
        -- rewrite nth_error_app1 in Hy by exact B. apply H2 in Hy. lra.
        -- rewrite nth_error_app2 in Hy by exact B. destruct (j - length pre)%nat as [|n]; cbn in Hy.
           ++ injection Hy as <-. lra.
           ++ destruct n; discriminate.
      * intros j y B Hy. rewrite nth_error_app1 in Hy by lia. apply H2 in Hy. lra.
    + repeat split.
      * rewrite nth_error_app1 by exact Hk. exact H1.
      * intros j y Hy. destruct (Nat.lt_ge_cases j (length pre)) as [B|B].
        -- rewrite nth_error_app1 in Hy by exact B. apply H2 in Hy. lra.
        -- rewrite nth_error_app2 in Hy by exact B. destruct (j - length pre)%nat as [|n]; cbn in Hy.
           ++ injection Hy as <-. lra.
           ++ destruct n; discriminate.
      * intros j y B Hy. rewrite nth_error_app1 in Hy by lia. exact (H3 j y B Hy).
Qed.

Lemma lsum_bounds l a b : (forall x, In x l -> a <= x <= b) ->
  a * INR (length l) <= lsum l <= b * INR (length l).
Proof.
  induction l as [|x l IH]; intros H; [cbn; lra|].
  cbn [length]. rewrite S_INR. change (lsum (x :: l)) with (x + lsum l).
  assert (Hx := H x (or_introl eq_refl)). assert (HI := IH (fun y Hy => H y (or_intror Hy))). lra.
Qed.

Lemma min_max_avg_spec l : l <> [] ->
  let s := min_max_avg l in
  first_smallest l (v_min s) (v_min_index s) /\ first_largest l (v_max s) (v_max_index s) /\
  v_avg s * INR (length l) = lsum l /\ v_min s <= v_avg s <= v_max s.
Proof.
  intros Hl s. destruct l as [|x r]; [congruence|].
  assert (A : first_smallest (x :: r) (v_min s) (v_min_index s)).
  { apply (arg_min_spec r [x] x 0%nat 1%nat eq_refl). repeat split.
    - intros [|[|j]] y; cbn; intros E; try discriminate. injection E as <-. lra.
    - intros j y B. lia. }
  assert (B : first_largest (x :: r) (v_max s) (v_max_index s)).
  { apply (arg_max_spec r [x] x 0%nat 1%nat eq_refl). repeat split.
    - intros [|[|j]] y; cbn; intros E; try discriminate. injection E as <-. lra.
    - intros j y C. lia. }
  assert (N : 0 < INR (length (x :: r))) by (apply lt_0_INR; cbn; lia).
  assert (D : v_avg s * INR (length (x :: r)) = lsum (x :: r)).
  { unfold s, min_max_avg. cbn [v_avg]. field. lra. }
  split; [exact A|]. split; [exact B|]. split; [exact D|].
  assert (E : forall y, In y (x :: r) -> v_min s <= y <= v_max s).
  { intros y Hy. apply In_nth_error in Hy as [j Hj]. split; [exact (proj1 (proj2 A) j y Hj)|exact (proj1 (proj2 B) j y Hj)]. }
  apply lsum_bounds in E. rewrite <- D in E.
  split; (eapply Rmult_le_reg_r; [exact N|]); lra.
Qed.

Lemma to_unsigned_spec x : 0 <= x < 4294967296 ->
  exists z, to_unsigned x = Some z /\ IZR z <= x < IZR z + 1.
Proof.
  intros H. destruct (base_Int_part x) as [B1 B2]. exists (Int_part x).
  assert (IZR (Int_part x) > -1) by lra.
  assert (-1 < Int_part x)%Z by (apply lt_IZR; lra).
  assert (Int_part x < 4294967296)%Z by (apply lt_IZR; lra).
  unfold to_unsigned. replace (Z.leb 0 (Int_part x)) with true by (symmetry; apply Z.leb_le; lia).
  replace (Z.ltb (Int_part x) 4294967296) with true by (symmetry; apply Z.ltb_lt; lia).
  cbn. split; [reflexivity|lra].
Qed.
Lemma to_unsigned_nat n : INR n < 4294967296 -> to_unsigned (INR n) = Some (Z.of_nat n).
Proof.
  intros H. destruct (to_unsigned_spec (INR n)) as (z & E & Hz); [split; [apply pos_INR|exact H]|].
  rewrite E. f_equal. rewrite INR_IZR_INZ in Hz.
  assert (z <= Z.of_nat n)%Z by (apply le_IZR; lra).
  assert (Z.of_nat n < z + 1)%Z by (apply lt_IZR; rewrite plus_IZR; lra). lia.
Qed.

Lemma C155_partition_proof sel ranks :
  ranks <> [] -> (forall c, In c ranks -> INR (sel c) < 4294967296) ->
  exists p a b, fst (line sel ranks) = Some p /\
    nth_error ranks (p_min_index p) = Some a /\ nth_error ranks (p_max_index p) = Some b /\
    p_min p = Z.of_nat (sel a) /\ p_max p = Z.of_nat (sel b) /\
    (forall i c, nth_error ranks i = Some c -> (sel a <= sel c <= sel b)%nat) /\
    (forall i c, (i < p_min_index p)%nat -> nth_error ranks i = Some c -> (sel a < sel c)%nat) /\
    (forall i c, (i < p_max_index p)%nat -> nth_error ranks i = Some c -> (sel c < sel b)%nat) /\
    (let n := Z.of_nat (length ranks) in let total := Z.of_nat (list_sum (map sel ranks)) in
     p_avg p * n <= total < (p_avg p + 1) * n)%Z.
Proof.
  intros HN HB. set (l := map (fun c => INR (sel c)) ranks).
  assert (Hl : l <> []) by (unfold l; destruct ranks; [congruence|discriminate]).
  destruct (min_max_avg_spec l Hl) as ((A1 & A2 & A3) & (B1 & B2 & B3) & D & E1 & E2).
  set (s := min_max_avg l) in *.
  unfold l in A1, B1. rewrite nth_error_map in A1, B1.
  destruct (nth_error ranks (v_min_index s)) as [a|] eqn:Ea; [|discriminate].
  destruct (nth_error ranks (v_max_index s)) as [b|] eqn:Eb; [|discriminate].
  cbn in A1, B1. injection A1 as A1. injection B1 as B1.
  change (fst (arg_min 1 (hd 0 l) 0 (tl l))) with (v_min s) in A1.
  change (fst (arg_max 1 (hd 0 l) 0 (tl l))) with (v_max s) in B1.
  assert (Ba : INR (sel a) < 4294967296) by (apply HB; eapply nth_error_In; exact Ea).
  assert (Bb : INR (sel b) < 4294967296) by (apply HB; eapply nth_error_In; exact Eb).
  assert (P : 0 <= INR (sel a)) by apply pos_INR.
  destruct (to_unsigned_spec (v_avg s)) as (z & Ez & Hz); [lra|].
  exists {| p_min := Z.of_nat (sel a); p_min_index := v_min_index s; p_avg := z;
            p_max := Z.of_nat (sel b); p_max_index := v_max_index s |}, a, b.
  cbn [p_min p_min_index p_avg p_max p_max_index].
  assert (Hmap : forall i c, nth_error ranks i = Some c -> nth_error l i = Some (INR (sel c))).
  { intros i c H. unfold l. rewrite nth_error_map, H. reflexivity. }
  split; [|repeat split; try assumption].
  - unfold line. cbn [fst]. fold l. fold s. unfold print_snippet.
    rewrite <- A1, <- B1, Ez, !to_unsigned_nat by assumption. reflexivity.
  - apply INR_le. rewrite A1. eapply A2, Hmap; eassumption.
  - apply INR_le. rewrite B1. eapply B2, Hmap; eassumption.
  - intros i c H H0. apply INR_lt. rewrite A1. eapply A3; [exact H|apply Hmap; exact H0].
  - intros i c H H0. apply INR_lt. rewrite B1. eapply B3; [exact H|apply Hmap; exact H0].
  - assert (T : lsum l = IZR (Z.of_nat (list_sum (map sel ranks)))).
    { unfold l. rewrite <- INR_IZR_INZ. clear. induction ranks as [|c r IH]; [reflexivity|].
      change (list_sum (map sel (c :: r))) with (sel c + list_sum (map sel r))%nat.
      rewrite plus_INR, <- IH. reflexivity. }
    assert (L : INR (length l) = IZR (Z.of_nat (length ranks))) by (unfold l; rewrite map_length; apply INR_IZR_INZ).
    assert (NP : 0 < INR (length l)) by (apply lt_0_INR; destruct l; [congruence|cbn; lia]).
    apply le_IZR. rewrite mult_IZR, <- T, <- L, <- D. apply Rmult_le_compat_r; lra.
  - assert (T : lsum l = IZR (Z.of_nat (list_sum (map sel ranks)))).
    { unfold l. rewrite <- INR_IZR_INZ. clear. induction ranks as [|c r IH]; [reflexivity|].
      change (list_sum (map sel (c :: r))) with (sel c + list_sum (map sel r))%nat.
      rewrite plus_INR, <- IH. reflexivity. }
    assert (L : INR (length l) = IZR (Z.of_nat (length ranks))) by (unfold l; rewrite map_length; apply INR_IZR_INZ).
    assert (NP : 0 < INR (length l)) by (apply lt_0_INR; destruct l; [congruence|cbn; lia]).
    apply lt_IZR. rewrite mult_IZR, plus_IZR, <- T, <- L, <- D. apply Rmult_lt_compat_r; lra.
Qed.

Lemma all_some_share sel ranks : (forall c, In c ranks -> (0 < n_rel c)%nat) ->
  all_some (map (fun c => share (sel c) (n_rel c)) ranks) = Some (map (fun c => INR (sel c) / INR (n_rel c)) ranks).
Proof.
  induction ranks as [|c r IH]; intros H; [reflexivity|].
  cbn [map all_some]. unfold share at 1.
  destruct (Nat.eqb_spec (n_rel c) 0) as [E|E]; [specialize (H c (or_introl eq_refl)); lia|].
  rewrite IH; [reflexivity|]. intros x Hx. apply H. right; exact Hx.
Qed.

Lemma C155_shares_proof sel ranks :
  ranks <> [] -> (forall c, In c ranks -> (0 < n_rel c)%nat /\ (sel c <= n_rel c)%nat) ->
  exists s a b, snd (line sel ranks) = Some s /\
    0 <= v_min s /\ v_min s <= v_avg s /\ v_avg s <= v_max s /\ v_max s <= 100 /\
    nth_error ranks (v_min_index s) = Some a /\ nth_error ranks (v_max_index s) = Some b /\
    v_min s * INR (n_rel a) = 100 * INR (sel a) /\ v_max s * INR (n_rel b) = 100 * INR (sel b) /\
    (forall c, In c ranks -> v_min s * INR (n_rel c) <= 100 * INR (sel c) <= v_max s * INR (n_rel c)).
Proof.
  intros HN HB. set (f := fun c => INR (sel c) / INR (n_rel c)). set (l := map f ranks).
  assert (Hl : l <> []) by (unfold l; destruct ranks; [congruence|discriminate]).
  destruct (min_max_avg_spec l Hl) as ((A1 & A2 & A3) & (B1 & B2 & B3) & D & E1 & E2).
  set (s := min_max_avg l) in *. unfold l in A1, B1. rewrite nth_error_map in A1, B1.
  destruct (nth_error ranks (v_min_index s)) as [a|] eqn:Ea; [|discriminate].
  destruct (nth_error ranks (v_max_index s)) as [b|] eqn:Eb; [|discriminate].
  cbn in A1, B1. injection A1 as A1. injection B1 as B1.
  change (fst (arg_min 1 (hd 0 l) 0 (tl l))) with (v_min s) in A1.
  change (fst (arg_max 1 (hd 0 l) 0 (tl l))) with (v_max s) in B1.
  assert (Pos : forall c, In c ranks -> 0 < INR (n_rel c)) by (intros c Hc; apply lt_0_INR; apply HB; exact Hc).
  assert (F : forall c, In c ranks -> 0 <= f c <= 1 /\ f c * INR (n_rel c) = INR (sel c)).
  { intros c Hc. specialize (Pos c Hc). destruct (HB c Hc) as [_ H]. apply le_INR in H. unfold f.
    assert (E : INR (sel c) / INR (n_rel c) * INR (n_rel c) = INR (sel c)) by (field; lra).
    assert (P0 := pos_INR (sel c)).
    split; [|exact E]. split; (eapply Rmult_le_reg_r; [exact Pos|]); rewrite E; lra. }
  assert (Ia := nth_error_In _ _ Ea). assert (Ib := nth_error_In _ _ Eb).
  destruct (F a Ia) as [Fa Ga]. destruct (F b Ib) as [Fb Gb].
  eexists. exists a, b. split.
  { unfold line, print_percentages. cbn [snd]. rewrite all_some_share by (intros c Hc; apply HB; exact Hc).
    change (map (fun c => INR (sel c) / INR (n_rel c)) ranks) with l. fold s. reflexivity. }
  cbn [v_min v_avg v_max v_min_index v_max_index].
  rewrite A1 in Fa, Ga. rewrite B1 in Fb, Gb.
  split; [lra|]. split; [lra|]. split; [lra|]. split; [lra|].
  split; [exact Ea|]. split; [exact Eb|]. split; [lra|]. split; [lra|].
  intros c Hc. destruct (F c Hc) as [_ Gc]. destruct (In_nth_error _ _ Hc) as [j Hj].
  assert (Hm : nth_error l j = Some (f c)) by (unfold l; rewrite nth_error_map, Hj; reflexivity).
  assert (X1 := A2 j _ Hm). assert (X2 := B2 j _ Hm). specialize (Pos c Hc).
  apply (Rmult_le_compat_r (INR (n_rel c))) in X1; [|lra]. apply (Rmult_le_compat_r (INR (n_rel c))) in X2; [|lra].
  lra.
Qed.

Definition four_ranks : list counts :=
  [ {| n_exp := 4; n_int := 20; n_own := 22; n_rel := 30 |};
    {| n_exp := 8; n_int := 10; n_own := 25; n_rel := 40 |};
    {| n_exp := 2; n_int := 20; n_own := 20; n_rel := 24 |};
    {| n_exp := 2; n_int := 30; n_own := 33; n_rel := 36 |} ].
Lemma partition_case : four_ranks <> [] /\
  (forall c, In c four_ranks -> INR (n_own c) < 4294967296 /\ (0 < n_rel c)%nat /\ (n_own c <= n_rel c)%nat).
Proof.
  split; [discriminate|]. intros c Hc. cbn in Hc.
  destruct Hc as [<-|[<-|[<-|[<-|[]]]]]; cbn [n_own n_rel]; (split; [cbn; lra|split; lia]).
Qed.

Lemma C155_shares_refuted_proof : exists ranks,
  (exists c, In c ranks /\ (0 < n_rel c)%nat) /\
  (forall c, In c ranks -> (n_own c <= n_rel c)%nat /\ (n_int c <= n_own c)%nat /\ (n_exp c <= n_own c)%nat) /\
  snd (line n_own ranks) = None.
Proof.
  exists [ {| n_exp := 0; n_int := 4; n_own := 4; n_rel := 4 |}; {| n_exp := 0; n_int := 0; n_own := 0; n_rel := 0 |} ].
  split; [eexists; split; [left; reflexivity|cbn; lia]|]. split; [|reflexivity].
  intros c [<-|[<-|[]]]; cbn; lia.
Qed.

Lemma C155_skew_proof eps walls : 0 <= eps <= 999 / 10 -> walls <> [] -> (forall w, In w walls -> 0 < w) ->
  exists avg lo hi, wall_skew eps walls = Some (avg, lo, hi) /\
    avg * INR (length walls) = fold_right Rplus 0 walls /\
    -999 / 10 <= lo <= 0 /\ 0 <= hi <= 999 / 10 /\
    (forall w, In w walls ->
      (-999 / 10 < lo -> avg * (1 + (lo + eps) / 100) <= w) /\ (hi < 999 / 10 -> w <= avg * (1 + (hi - eps) / 100))) /\
    (-999 / 10 < lo -> exists w, In w walls /\ w = avg * (1 + (lo + eps) / 100)) /\
    (hi < 999 / 10 -> exists w, In w walls /\ w = avg * (1 + (hi - eps) / 100)).
Proof.
  intros He HN HP. destruct (min_max_avg_spec walls HN) as ((A1 & A2 & _) & (B1 & B2 & _) & D & E1 & E2).
  set (s := min_max_avg walls) in *.
  assert (Ia := nth_error_In _ _ A1). assert (Ib := nth_error_In _ _ B1).
  assert (Pm := HP _ Ia).
  assert (Pa : 0 < v_avg s) by lra.
  assert (Q1 : 100 * (v_min s - v_avg s) / v_avg s <= 0).
  { apply (Rmult_le_reg_r (v_avg s)); [exact Pa|].
    replace (100 * (v_min s - v_avg s) / v_avg s * v_avg s) with (100 * (v_min s - v_avg s)) by (field; lra). lra. }
  assert (Q2 : 0 <= 100 * (v_max s - v_avg s) / v_avg s).
  { apply (Rmult_le_reg_r (v_avg s)); [exact Pa|].
    replace (100 * (v_max s - v_avg s) / v_avg s * v_avg s) with (100 * (v_max s - v_avg s)) by (field; lra). lra. }
  unfold wall_skew. fold s. destruct (Req_EM_T (v_avg s) 0) as [Z|_]; [lra|].
  do 3 eexists. split; [reflexivity|]. split; [exact D|].
  assert (R1 : -999 / 10 < Rmax (100 * (v_min s - v_avg s) / v_avg s - eps) (-999 / 10) ->
    v_avg s * (1 + (Rmax (100 * (v_min s - v_avg s) / v_avg s - eps) (-999 / 10) + eps) / 100) = v_min s).
  { unfold Rmax. destruct (Rle_dec _ _); intros; [lra|]. field. lra. }
  assert (R2 : Rmin (100 * (v_max s - v_avg s) / v_avg s + eps) (999 / 10) < 999 / 10 ->
    v_avg s * (1 + (Rmin (100 * (v_max s - v_avg s) / v_avg s + eps) (999 / 10) - eps) / 100) = v_max s).
  { unfold Rmin. destruct (Rle_dec _ _); intros; [|lra]. field. lra. }
  split; [unfold Rmax; destruct (Rle_dec _ _); lra|].
  split; [unfold Rmin; destruct (Rle_dec _ _); lra|]. split; [|split].
  - intros w Hw. apply In_nth_error in Hw as [j Hj]. split; intros H.
    + rewrite (R1 H). exact (A2 j w Hj).
    + rewrite (R2 H). exact (B2 j w Hj).
  - intros H. exists (v_min s). split; [exact Ia|]. symmetry. exact (R1 H).
  - intros H. exists (v_max s). split; [exact Ib|]. symmetry. exact (R2 H).
Qed.
Lemma skew_case : 0 <= 1 / 1000 <= 999 / 10 /\ [1; 2; 3] <> [] /\ forall w, In w [1; 2; 3] -> 0 < w.
Proof. split; [lra|]. split; [discriminate|]. intros w [<-|[<-|[<-|[]]]]; lra. Qed.

Lemma cpu_column_length total timers : forall flag, length (cpu_column total flag timers) = length timers.
Proof. induction timers as [|[n c] r IH]; intros flag; cbn; [reflexivity|rewrite IH; reflexivity]. Qed.
Lemma cpu_column_flag total timers : forall flag i n c, nth_error timers i = Some (n, c) ->
  exists o, nth_error (cpu_column total flag timers) i = Some (lsum c, o) /\
    ((flag = true \/ exists j m d, (j < i)%nat /\ nth_error timers j = Some (m, d) /\ starts_with "time loop" m = true) ->
      o = Some (100 * lsum c / total)) /\
    (~ (flag = true \/ exists j m d, (j < i)%nat /\ nth_error timers j = Some (m, d) /\ starts_with "time loop" m = true) ->
      o = None).
Proof.
  induction timers as [|[n0 c0] r IH]; intros flag i n c H; [destruct i; discriminate|].
  destruct i as [|i]; cbn [nth_error cpu_column] in *.
  - injection H as -> ->. eexists. split; [reflexivity|]. split.
    + intros [->|(j & m & d & L & _)]; [reflexivity|lia].
    + intros N. destruct flag; [exfalso; apply N; left; reflexivity|reflexivity].
  - destruct (IH (flag || starts_with "time loop" n0)%bool i n c H) as (o & H1 & H2 & H3).
    exists o. split; [exact H1|]. split.
    + intros [->|(j & m & d & L & E & S)]; apply H2.
      * left. reflexivity.
      * destruct j as [|j]; cbn in E.
        -- injection E as -> ->. left. rewrite S. apply orb_true_r.
        -- right. exists j, m, d. repeat split; try assumption. lia.
    + intros N. apply H3. intros [F|(j & m & d & L & E & S)]; apply N.
      * apply orb_prop in F as [->|F]; [left; reflexivity|]. right. exists 0%nat, n0, c0. repeat split; [lia|exact F].
      * right. exists (Datatypes.S j), m, d. repeat split; try assumption. lia.
Qed.

Lemma lsum_le l l' : Forall2 (fun x y => 0 <= x <= y) l l' -> 0 <= lsum l <= lsum l'.
Proof.
  induction 1 as [|x y l l' H _ IH]; [cbn; lra|].
  change (lsum (x :: l)) with (x + lsum l). change (lsum (y :: l')) with (y + lsum l'). lra.
Qed.

Lemma C155_cpu_share_proof before loop after i n c :
  0 < lsum loop ->
  (forall m d, In (m, d) before -> String.prefix "time loop" m = false) ->
  nth_error after i = Some (n, c) -> Forall2 (fun x y => 0 <= x <= y) c loop ->
  let rows := cpu_column (lsum loop) false (before ++ ("time loop"%string, loop) :: after) in
  (forall j, (j <= length before)%nat -> exists x, nth_error rows j = Some (x, None)) /\
  exists p, nth_error rows (length before + 1 + i) = Some (fold_right Rplus 0 c, Some p) /\
    p * fold_right Rplus 0 loop = 100 * fold_right Rplus 0 c /\ 0 <= p <= 100.
Proof.
  intros HL HB Hi HF rows. split.
  - intros j Hj.
    destruct (nth_error (before ++ ("time loop"%string, loop) :: after) j) as [[m d]|] eqn:E.
    2: { exfalso. apply nth_error_None in E. rewrite app_length in E. cbn in E. lia. }
    destruct (cpu_column_flag (lsum loop) _ false j m d E) as (o & H1 & _ & H3).
    exists (lsum d). unfold rows. rewrite H1, H3; [reflexivity|].
    intros [F|(k & m' & d' & L & E' & S)]; [discriminate|].
    rewrite nth_error_app1 in E' by lia. apply nth_error_In in E'. unfold starts_with in S. rewrite (HB _ _ E') in S. discriminate.
  - assert (E : nth_error (before ++ ("time loop"%string, loop) :: after) (length before + 1 + i) = Some (n, c)).
    { rewrite nth_error_app2 by lia. replace (length before + 1 + i - length before)%nat with (Datatypes.S i) by lia. exact Hi. }
    destruct (cpu_column_flag (lsum loop) _ false _ n c E) as (o & H1 & H2 & _).
    exists (100 * lsum c / lsum loop). unfold rows. rewrite H1. rewrite H2.
    2: { right. exists (length before), "time loop"%string, loop. split; [lia|]. split; [|reflexivity].
         rewrite nth_error_app2, Nat.sub_diag by lia. reflexivity. }
    split; [reflexivity|]. fold (lsum loop). fold (lsum c).
    assert (X : 100 * lsum c / lsum loop * lsum loop = 100 * lsum c) by (field; lra).
    split; [exact X|]. apply lsum_le in HF.
    split; (apply (Rmult_le_reg_r (lsum loop)); [exact HL|]); lra.
Qed.
Lemma cpu_share_case : 0 < lsum [10; 12] /\
  (forall m d, In (m, d) [("(re)initialize data structures"%string, [1; 1])] -> String.prefix "time loop" m = false) /\
  nth_error [("time step [H] 1"%string, [5; 6])] 0 = Some ("time step [H] 1"%string, [5; 6]) /\
  Forall2 (fun x y => 0 <= x <= y) [5; 6] [10; 12].
Proof.
  split; [cbn; lra|]. split.
  - intros m d [E|[]]. injection E as <- <-. reflexivity.
  - split; [reflexivity|]. repeat constructor; lra.
Qed.
