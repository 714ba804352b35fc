(** * Proofs about the reports on the progress of a run *)
From Coq Require Import Reals ZArith Lra Lia String List Bool Arith.
From Verif Require Import Report ReportSpec.
Import ListNotations.
Local Open Scope R_scope.

(** ** Time *)
Lemma C155_eta_text_proof eta : (0 <= eta)%Z ->
  let '(d, h, m) := eta_parts eta in
  (0 <= d /\ 0 <= h < 24 /\ 0 <= m < 60 /\ 86400 * d + 3600 * h + 60 * m <= eta < 86400 * d + 3600 * h + 60 * m + 60)%Z.
Proof.
  intros H. unfold eta_parts. cbv zeta. change (24 * 3600)%Z with 86400%Z.
  pose proof (Z.div_mod eta 86400 ltac:(lia)) as A. pose proof (Z.mod_pos_bound eta 86400 ltac:(lia)) as B.
  pose proof (Z.div_pos eta 86400 ltac:(lia) ltac:(lia)) as D.
  set (e := if (0 <? eta / 86400)%Z then (eta mod 86400)%Z else eta).
  assert (E : e = (eta mod 86400)%Z) by (unfold e; destruct (Z.ltb_spec 0 (eta / 86400)); lia).
  pose proof (Z.div_mod e 3600 ltac:(lia)) as A2. pose proof (Z.mod_pos_bound e 3600 ltac:(lia)) as B2.
  pose proof (Z.div_pos e 3600 ltac:(lia) ltac:(lia)) as D2.
  set (f := if (0 <? e / 3600)%Z then (e mod 3600)%Z else e).
  assert (F : f = (e mod 3600)%Z) by (unfold f; destruct (Z.ltb_spec 0 (e / 3600)); lia).
  pose proof (Z.div_mod f 60 ltac:(lia)) as A3. pose proof (Z.mod_pos_bound f 60 ltac:(lia)) as B3.
  pose proof (Z.div_pos f 60 ltac:(lia) ltac:(lia)) as D3. lia.
Qed.

(** ** Averages *)
Lemma throughput_fields S m n t c f r m' : print_throughput S m n t c f = Some (r, m') ->
  let p := if f then data0 else current m in let w := lmax (map wall c) in
  INR (n - d_cycle p) <> 0 /\ w - d_wall p <> 0 /\
  r_dt r = (t - d_t p) / INR (n - d_cycle p) /\ r_speed r = (t - d_t p) / (w - d_wall p) /\
  speed_exp m' = 8 / 10 * speed_exp m + 2 / 10 * ((t - d_t p) / (w - d_wall p)) /\
  r_eta r = (if Req_EM_T (speed_exp m') 0 then None else to_unsigned (Rmax (t_final S - t) 0 / speed_exp m')) /\
  d_cycle (current m') = n /\ d_t (current m') = t /\ d_wall (current m') = w /\
  r_cycles_per_second r = INR (n - d_cycle p) / (w - d_wall p) /\
  r_wall_throughput r = INR (n - d_cycle p) * n_dofs S / 1000000 / (w - d_wall p) * efficiency S /\ 0 <= r_skew r.
Proof.
  unfold print_throughput. cbn [take d_cycle d_t d_wall d_sum]. intros E.
  destruct (Req_EM_T (INR _) 0) as [?|N1]; [discriminate|]. destruct (Req_EM_T (lmax _ - _) 0) as [?|N2]; [discriminate|].
  destruct (Req_EM_T (lsum _ - _) 0); [discriminate|]. injection E as <- <-. cbn.
  repeat split; try reflexivity; try assumption. apply Rmax_l.
Qed.

Lemma firstn_sum taus n1 n2 : (n1 <= n2)%nat ->
  fold_right Rplus 0 (firstn n2 taus) - fold_right Rplus 0 (firstn n1 taus) = fold_right Rplus 0 (firstn (n2 - n1) (skipn n1 taus)).
Proof.
  revert n1 n2. induction taus as [|x l IH]; intros n1 n2 H.
  - rewrite skipn_nil, !firstn_nil. cbn. ring.
  - destruct n1 as [|n1].
    + rewrite Nat.sub_0_r. cbn [firstn skipn fold_right]. ring.
    + destruct n2 as [|n2]; [lia|]. cbn [firstn skipn fold_right]. replace (S n2 - S n1)%nat with (n2 - n1)%nat by lia.
      rewrite <- IH by lia. ring.
Qed.

Lemma C155_averages_proof S m taus t0 n1 n2 c1 c2 r1 m1 r2 m2 : (n1 < n2 <= length taus)%nat ->
  print_throughput S m n1 (elapsed t0 taus n1) c1 false = Some (r1, m1) ->
  print_throughput S m1 n2 (elapsed t0 taus n2) c2 false = Some (r2, m2) ->
  let total := fold_right Rplus 0 (firstn (n2 - n1) (skipn n1 taus)) in
  let seconds := lmax (map wall c2) - lmax (map wall c1) in
  r_dt r2 * INR (n2 - n1) = total /\ r_speed r2 * seconds = total /\ r_cycles_per_second r2 * seconds = INR (n2 - n1) /\
  r_wall_throughput r2 * seconds * 1000000 = INR (n2 - n1) * n_dofs S * efficiency S.
Proof.
  intros H E1 E2. apply throughput_fields in E1. apply throughput_fields in E2. cbv zeta in *.
  destruct E1 as (_ & _ & _ & _ & _ & _ & A & B & C & _). destruct E2 as (N & W & D & V & _ & _ & _ & _ & _ & Y & T & _).
  rewrite A, B, C in *. rewrite <- firstn_sum by lia. unfold elapsed in *.
  rewrite D, V, Y, T. repeat split; field; auto.
Qed.

Lemma C155_final_proof S m taus c r m' : taus <> [] ->
  print_throughput S m (length taus) (elapsed 0 taus (length taus)) c true = Some (r, m') ->
  r_dt r * INR (length taus) = fold_right Rplus 0 taus /\ r_speed r * lmax (map wall c) = fold_right Rplus 0 taus.
Proof.
  intros H E. apply throughput_fields in E. cbv zeta in E. cbn [data0 d_cycle d_t d_wall] in E.
  destruct E as (N & W & D & V & _). rewrite Nat.sub_0_r in *. rewrite Rminus_0_r in *.
  rewrite D, V. unfold elapsed. rewrite firstn_all. split; field; auto.
Qed.

Lemma lmax_largest l m : largest l m -> lmax l = m.
Proof.
  destruct l as [|x r]; intros [I B]; [destruct I|]. cbn [lmax].
  assert (A : (fold_right Rmax x r = x \/ In (fold_right Rmax x r) r) /\ (forall y, In y (x :: r) -> y <= fold_right Rmax x r)).
  { clear. induction r as [|z r [IH1 IH2]].
    - split; [left; reflexivity|]. intros y [<-|[]]. cbn. lra.
    - cbn [fold_right]. split.
      + unfold Rmax at 1 3. destruct (Rle_dec z (fold_right Rmax x r)); [|right; left; reflexivity].
        destruct IH1; [left; assumption|right; right; assumption].
      + intros y [<-|[<-|H]]; [|apply Rmax_l|].
        * eapply Rle_trans; [apply IH2; left; reflexivity|apply Rmax_r].
        * eapply Rle_trans; [apply IH2; right; exact H|apply Rmax_r]. }
  destruct A as [A1 A2]. apply Rle_antisym; [|apply A2; exact I]. apply B.
  destruct A1 as [A1|A1]; [left; symmetry; exact A1|right; exact A1].
Qed.

Lemma lmin_smallest l m : smallest l m -> lmin l = m.
Proof.
  destruct l as [|x r]; intros [I B]; [destruct I|]. cbn [lmin].
  assert (A : (fold_right Rmin x r = x \/ In (fold_right Rmin x r) r) /\ (forall y, In y (x :: r) -> fold_right Rmin x r <= y)).
  { clear. induction r as [|z r [IH1 IH2]].
    - split; [left; reflexivity|]. intros y [<-|[]]. cbn. lra.
    - cbn [fold_right]. split.
      + unfold Rmin at 1 3. destruct (Rle_dec z (fold_right Rmin x r)); [right; left; reflexivity|].
        destruct IH1; [left; assumption|right; right; assumption].
      + intros y [<-|[<-|H]]; [|apply Rmin_l|].
        * eapply Rle_trans; [apply Rmin_r|apply IH2; left; reflexivity].
        * eapply Rle_trans; [apply Rmin_r|apply IH2; right; exact H]. }
  destruct A as [A1 A2]. apply Rle_antisym; [apply A2; exact I|]. apply B.
  destruct A1 as [A1|A1]; [left; symmetry; exact A1|right; exact A1].
Qed.

Lemma C155_cpu_proof S m n1 n2 t1 t2 c1 c2 r1 m1 r2 m2 slow1 slow2 big1 big2 small1 small2 : (n1 < n2)%nat ->
  length c1 = length c2 ->
  print_throughput S m n1 t1 c1 false = Some (r1, m1) -> print_throughput S m1 n2 t2 c2 false = Some (r2, m2) ->
  largest (map wall c1) slow1 -> largest (map wall c2) slow2 ->
  largest (map cpu c1) big1 -> largest (map cpu c2) big2 ->
  smallest (map cpu c1) small1 -> smallest (map cpu c2) small2 ->
  let used := fold_right Rplus 0 (map cpu c2) - fold_right Rplus 0 (map cpu c1) in
  let cycles := INR (n2 - n1) in
  r_cycles_per_second r2 * (slow2 - slow1) = cycles /\
  r_cpu_throughput r2 * used * 1000000 = cycles * n_dofs S * efficiency S * n_threads S /\
  r_skew r2 * cycles = Rmax 0 ((big2 - small2) - (big1 - small1)) /\
  r_skew_percent r2 * used = 100 * INR (length c2) * Rmax 0 ((big2 - small2) - (big1 - small1)).
Proof.
  intros H Len E1 E2 W1 W2 B1 B2 S1 S2 used cycles.
  apply lmax_largest in W1, W2, B1, B2. apply lmin_smallest in S1, S2.
  assert (C1 : current m1 = take n1 t1 c1).
  { unfold print_throughput in E1. do 3 (destruct (Req_EM_T _ 0) in E1; [discriminate|]). injection E1 as _ <-. reflexivity. }
  assert (L0 : INR (length c2) <> 0).
  { apply not_0_INR. destruct c2; [|discriminate]. intros _. destruct c1; [|discriminate]. clear -E2 C1.
    unfold print_throughput in E2. rewrite C1 in E2. cbn [take map lmax d_wall] in E2.
    destruct (Req_EM_T _ 0) in E2; [discriminate|]. destruct (Req_EM_T (0 - 0) 0) as [|N]; [discriminate|].  apply N. ring.  }
  unfold print_throughput in E2. rewrite C1 in E2. cbn [take d_cycle d_t d_wall d_sum d_avg d_min d_max] in E2.
  destruct (Req_EM_T (INR _) 0) as [|NC] in E2; [discriminate|]. destruct (Req_EM_T (lmax (map wall c2) - _) 0) as [|NW] in E2; [discriminate|].
  destruct (Req_EM_T (lsum _ - _) 0) as [|NS] in E2; [discriminate|]. injection E2 as <- _. cbn.
  rewrite W1, W2, B1, B2, S1, S2 in *. unfold lavg. rewrite !map_length, Len. fold cycles in NC |- *.
  unfold lsum in *. fold used in NS |- *. set (q := Rmax 0 _).
  assert (Q : q * cycles = Rmax 0 (big2 - small2 - (big1 - small1))).
  { unfold q. rewrite Rmult_comm. assert (P : 0 <= cycles) by apply pos_INR.
    rewrite <- RmaxRmult by exact P. rewrite Rmult_0_r. f_equal. field. exact NC. }
  split; [field; exact NW|]. split; [field; exact NS|]. split; [exact Q|]. rewrite <- Q.
  replace (fold_right Rplus 0 (map cpu c2) / INR (length c2) - fold_right Rplus 0 (map cpu c1) / INR (length c2)) with (used / INR (length c2))
    by (unfold used; field; exact L0). field. split; assumption.
Qed.

(** ** Remaining time *)
Lemma reports_app S a b m : reports S m (a ++ b) =
  match reports S m a with
  | None => None
  | Some (rs, m') => match reports S m' b with None => None | Some (rs', m'') => Some (rs ++ rs', m'')%list end
  end.
Proof.
  revert m. induction a as [|[[n t] c] a IH]; intros m; cbn [reports app].
  - destruct (reports S m b) as [[? ?]|]; reflexivity.
  - destruct (print_throughput _ _ _ _ _ _) as [[r m']|]; [|reflexivity]. rewrite IH.
    destruct (reports S m' a) as [[rs m'']|]; [|reflexivity]. destruct (reports S m'' b) as [[? ?]|]; reflexivity.
Qed.

Lemma reports_speed S lo hi calls : forall m k rs m', 
  progress lo hi (d_cycle (current m)) (d_t (current m)) (d_wall (current m)) calls ->
  (1 - (8 / 10) ^ k) * lo <= speed_exp m <= (1 - (8 / 10) ^ k) * hi ->
  reports S m calls = Some (rs, m') ->
  (1 - (8 / 10) ^ (k + length calls)) * lo <= speed_exp m' <= (1 - (8 / 10) ^ (k + length calls)) * hi.
Proof.
  induction calls as [|[[n t] c] calls IH]; intros m k rs m' P H E.
  - injection E as _ <-. cbn [length]. rewrite Nat.add_0_r. exact H.
  - cbn [reports] in E. destruct (print_throughput _ _ _ _ _ _) as [[r m1]|] eqn:E1; [|discriminate].
    destruct (reports S m1 calls) as [[rs1 m2]|] eqn:E2; [|discriminate]. injection E as _ <-.
    apply throughput_fields in E1. cbv zeta in E1. destruct E1 as (_ & _ & _ & _ & SP & _ & A & B & C & _).
    cbn [progress] in P. destruct P as (_ & W & V & P). rewrite <- A, <- B, <- C in P at 1.
    rewrite A, B, C in P.
    replace (k + length ((n, t, c) :: calls))%nat with (Datatypes.S k + length calls)%nat by (cbn [length]; lia).
    apply (IH m1 (Datatypes.S k) rs1 m2); [rewrite A, B, C; exact P| |exact E2].
    rewrite SP. set (w := lmax (map wall c)) in *. set (d := w - d_wall (current m)) in *.
    assert (Q : lo <= (t - d_t (current m)) / d <= hi).
    { assert (0 < d) by (unfold d; lra). split; apply (Rmult_le_reg_r d); try assumption;
        unfold Rdiv; rewrite Rmult_assoc, Rinv_l by lra; lra. }
    cbn [pow]. set (x := (8 / 10) ^ k) in *. lra.
Qed.

Lemma to_unsigned_some q e : to_unsigned q = Some e -> 0 <= q -> q - 1 < IZR e <= q.
Proof.
  unfold to_unsigned. destruct (Rlt_dec (-1) q); [|discriminate]. destruct (Rlt_dec q _); [|discriminate].
  intros E H. injection E as <-. destruct (base_Int_part q) as [A B].
  assert (0 <= Int_part q)%Z. { apply Z.lt_succ_r. apply lt_IZR. rewrite succ_IZR. lra. }
  rewrite Z.max_r by assumption. lra.
Qed.

Lemma to_unsigned_defined q : 0 <= q -> q < powerRZ 2 32 -> exists e, to_unsigned q = Some e.
Proof.
  intros A B. unfold to_unsigned. destruct (Rlt_dec (-1) q); [|lra]. destruct (Rlt_dec q _); [|lra]. eexists. reflexivity.
Qed.

Lemma C155_eta_proof S lo hi calls n t c rs m : 0 < lo ->
  progress lo hi 0 0 0 (calls ++ [(n, t, c)]) -> t <= t_final S ->
  reports S memory0 (calls ++ [(n, t, c)]) = Some (rs, m) ->
  let k := length (calls ++ [(n, t, c)]) in
  exists rs' r, rs = (rs' ++ [r])%list /\
    (forall e, r_eta r = Some e ->
       (t_final S - t) / hi - 1 < IZR e <= (t_final S - t) / (lo * (1 - (8 / 10) ^ k))) /\
    ((t_final S - t) / (lo * (1 - (8 / 10) ^ k)) < powerRZ 2 32 -> exists e, r_eta r = Some e).
Proof.
  intros Hlo P Ht E k.
  pose proof (reports_speed S lo hi (calls ++ [(n, t, c)]) memory0 0 rs m P ltac:(cbn; lra) E) as SP.
  change (0 + length (calls ++ [(n, t, c)]))%nat with k in SP.
  assert (K : (8 / 10) ^ k <= 8 / 10).
  { unfold k. rewrite app_length. cbn [length]. rewrite Nat.add_1_r. cbn [pow].
    assert ((8 / 10) ^ length calls <= 1). { clear. induction (length calls) as [|j IH]; cbn [pow]; [lra|].
      assert (0 <= (8 / 10) ^ j) by (apply pow_le; lra). lra. } lra. }
  assert (K0 : 0 < (8 / 10) ^ k) by (apply pow_lt; lra).
  rewrite reports_app in E. destruct (reports S memory0 calls) as [[rs' m1]|] eqn:E1; [|discriminate].
  cbn [reports] in E. destruct (print_throughput _ _ _ _ _ _) as [[r m2]|] eqn:E2; [|discriminate].
  injection E as <- <-. exists rs', r. split; [reflexivity|].
  apply throughput_fields in E2. cbv zeta in E2. destruct E2 as (_ & _ & _ & _ & _ & ETA & _).
  set (x := (8 / 10) ^ k) in *. set (e := speed_exp m2) in *. rewrite Rmax_left in ETA by lra.
  assert (e0 : 0 < e) by nra. assert (Hhi : 0 < hi) by nra.
  destruct (Req_EM_T e 0); [lra|].
  assert (U : (t_final S - t) / hi <= (t_final S - t) / e).
  { apply Rmult_le_compat_l; [lra|]. apply Rinv_le_contravar; [exact e0|nra]. }
  assert (L : (t_final S - t) / e <= (t_final S - t) / (lo * (1 - x))).
  { apply Rmult_le_compat_l; [lra|]. apply Rinv_le_contravar; [nra|lra]. }
  assert (NN : 0 <= (t_final S - t) / e) by (apply Rmult_le_pos; [lra|left; apply Rinv_0_lt_compat; exact e0]).
  split.
  - intros f Ef. rewrite ETA in Ef. apply to_unsigned_some in Ef; [lra|exact NN].
  - intros B. rewrite ETA. apply to_unsigned_defined; lra.
Qed.

(** ** Layout *)
Lemma length_append a b : String.length (append a b) = (String.length a + String.length b)%nat.
Proof. induction a as [|c a IH]; cbn; [reflexivity|]. rewrite IH. reflexivity. Qed.

Lemma length_fill n : String.length (fill n " ") = n.
Proof. induction n as [|n IH]; cbn; [reflexivity|]. cbn in IH. rewrite IH. reflexivity. Qed.

Lemma length_padded h : (String.length h <= 34)%nat -> String.length (padded h) = 34%nat.
Proof.
  intros H. unfold padded. rewrite !length_append, !length_fill. set (n := String.length h) in *.
  rewrite !Z.quot_div_nonneg by lia. rewrite !Z.max_r by lia.
  pose proof (Z.div_mod (34 - Z.of_nat n) 2 ltac:(lia)) as A. pose proof (Z.mod_pos_bound (34 - Z.of_nat n) 2 ltac:(lia)).
  pose proof (Z.div_mod (35 - Z.of_nat n) 2 ltac:(lia)) as B. pose proof (Z.mod_pos_bound (35 - Z.of_nat n) 2 ltac:(lia)).
  replace (35 - Z.of_nat n)%Z with (34 - Z.of_nat n + 1)%Z in * by lia. 
  assert (((34 - Z.of_nat n) mod 2 + (34 - Z.of_nat n + 1) mod 2 = 1)%Z).
  { rewrite Zplus_mod. destruct (Z.eq_dec ((34 - Z.of_nat n) mod 2) 0) as [->|?]; [reflexivity|].
    assert (M : ((34 - Z.of_nat n) mod 2 = 1)%Z) by lia. rewrite M. reflexivity. }
  lia.
Qed.

Lemma C155_head_proof h s : (String.length h <= 34)%nat -> (String.length s <= 34)%nat ->
  Forall (fun l => String.length l = 56%nat) (head_lines h s).
Proof.
  intros A B. unfold head_lines. repeat constructor; rewrite !length_append, length_padded by assumption; reflexivity.
Qed.

Lemma length_in l ls : In l ls -> (String.length l <= fold_right Nat.max 0 (map String.length ls))%nat.
Proof. induction ls as [|x ls IH]; intros H; [destruct H|]. cbn. destruct H as [->|H]; [lia|]. apply IH in H. lia. Qed.

Lemma equalize_same ls l l' : In l (equalize ls) -> In l' (equalize ls) -> String.length l = String.length l'.
Proof.
  intros A B. apply in_map_iff in A. apply in_map_iff in B. destruct A as (a & <- & A). destruct B as (b & <- & B).
  apply length_in in A. apply length_in in B. rewrite !length_append, !length_fill. lia.
Qed.

Lemma C155_table_proof names walls cpus l l' :
  In l (table names walls cpus) -> In l' (table names walls cpus) -> String.length l = String.length l'.
Proof. apply equalize_same. Qed.

(** Every entry of the table stands in the line of its timer, and the columns
    begin at the same place. *)
Lemma equalize_nth ls i a : nth_error ls i = Some a ->
  nth_error (equalize ls) i = Some (append a (fill (fold_right Nat.max 0 (map String.length ls) - String.length a + 1) " "))%nat.
Proof. intros H. unfold equalize. rewrite nth_error_map, H. reflexivity. Qed.

Lemma nth_error_combine {A B} (a : list A) (b : list B) i x y :
  nth_error a i = Some x -> nth_error b i = Some y -> nth_error (combine a b) i = Some (x, y).
Proof.
  revert b i. induction a as [|h a IH]; intros b i HA HB; [destruct i; discriminate|].
  destruct b as [|h' b]; [destruct i; discriminate|]. destruct i as [|i]; cbn in *; [congruence|]. apply IH; assumption.
Qed.

Lemma column_nth out cells i o c : nth_error out i = Some o -> nth_error cells i = Some c ->
  exists k, nth_error (column out cells) i = Some (append (append o c) (fill (k - String.length (append o c) + 1) " ")) /\
    (String.length (append o c) <= k)%nat /\ (forall l, In l (column out cells) -> String.length l = k + 1)%nat.
Proof.
  intros A B. unfold column. set (ls := map (fun p => append (fst p) (snd p)) (combine out cells)).
  assert (N : nth_error ls i = Some (append o c)) by (unfold ls; rewrite nth_error_map, (nth_error_combine out cells i o c A B); reflexivity).
  exists (fold_right Nat.max 0%nat (map String.length ls)). split; [|split].
  - apply equalize_nth. exact N.
  - apply length_in. eapply nth_error_In. exact N.
  - intros l Hl. apply in_map_iff in Hl. destruct Hl as (a & <- & Ha). apply length_in in Ha.
    rewrite length_append, length_fill. lia.
Qed.

Lemma append_assoc a b c : append (append a b) c = append a (append b c).
Proof. induction a as [|x a IH]; cbn; [reflexivity|]. rewrite IH. reflexivity. Qed.

Lemma C155_columns_proof names walls cpus : 
  exists p q, forall i n w c, nth_error names i = Some n -> nth_error walls i = Some w -> nth_error cpus i = Some c ->
    length walls = length names -> 
    exists a b d, nth_error (table names walls cpus) i = Some (append a (append w (append b (append c d)))) /\
      String.length a = p /\ (String.length a + String.length w + String.length b)%nat = q /\
      exists s, a = append "  " (append n (fill (Datatypes.S s) " ")).
Proof.
  set (o0 := map (fun _ : string => EmptyString) names).
  set (o1 := column o0 (map (append "  ") names)). set (o2 := column o1 walls).
  exists (String.length (hd EmptyString o1)), (String.length (hd EmptyString o2)).
  intros i n w c Hn Hw Hc HL.
  assert (A0 : nth_error o0 i = Some EmptyString) by (unfold o0; rewrite nth_error_map, Hn; reflexivity).
  assert (N1 : nth_error (map (append "  ") names) i = Some (append "  " n)) by (rewrite nth_error_map, Hn; reflexivity).
  destruct (column_nth o0 _ i _ _ A0 N1) as (k1 & E1 & L1 & S1). fold o1 in E1, S1.
  destruct (column_nth o1 walls i _ _ E1 Hw) as (k2 & E2 & L2 & S2). fold o2 in E2, S2.
  destruct (column_nth o2 cpus i _ _ E2 Hc) as (k3 & E3 & L3 & S3).
  assert (H1 : String.length (hd EmptyString o1) = (k1 + 1)%nat).
  { apply S1. destruct o1; [destruct i; discriminate|left; reflexivity]. }
  assert (H2 : String.length (hd EmptyString o2) = (k2 + 1)%nat).
  { apply S2. destruct o2; [destruct i; discriminate|left; reflexivity]. }
  rewrite H1, H2. unfold table. fold o0. fold o1. fold o2. 
  eexists (append "  " (append n (fill (k1 - String.length (append EmptyString (append "  " n)) + 1) " "))),
    (fill (k2 - String.length _ + 1) " "), (fill (k3 - String.length _ + 1) " ").
  split; [rewrite E3; f_equal; rewrite !append_assoc; reflexivity|].
  rewrite !length_append, !length_fill in *. cbn [String.length append] in *. repeat split; try lia.
  eexists. rewrite Nat.add_1_r. reflexivity.
Qed.

(** ** Agreement of the ranks *)
Lemma step_same interval k lasts x y : In x (step_ranks interval k lasts) -> In y (step_ranks interval k lasts) -> fst x = fst y.
Proof.
  intros A B. apply in_map_iff in A. apply in_map_iff in B. destruct A as (a & <- & _). destruct B as (b & <- & _).
  unfold end_of_step. destruct (Req_EM_T interval 0); reflexivity.
Qed.

Lemma C155_collectives_proof interval ks lasts step x y :
  In step (run_ranks interval ks lasts) -> In x step -> In y step -> x = y.
Proof.
  revert lasts. induction ks as [|k ks IH]; intros lasts H A B; [destruct H|]. cbn [run_ranks] in H. destruct H as [<-|H].
  - apply in_map_iff in A. apply in_map_iff in B. destruct A as (a & <- & A). destruct B as (b & <- & B).
    exact (step_same _ _ _ _ _ A B).
  - exact (IH _ H A B).
Qed.

(** The decisions of rank 0. *)
Fixpoint root_run (interval : R) (ks : list moment) (l : last_output) : list bool :=
  match ks with
  | [] => []
  | k :: rest =>
      let b := (m_log k || due interval (hd 0 (m_walls k)) l)%bool in
      b :: root_run interval rest (if b then Some (hd 0 (m_walls k)) else l)
  end.

Lemma shown_root interval ks : interval <> 0 -> forall lasts j, lasts <> [] ->
  (forall k, In k ks -> length (m_walls k) = length lasts) ->
  shown (run_ranks interval ks lasts) j = nth j (root_run interval ks (hd None lasts)) false.
Proof.
  intros Hi. induction ks as [|k ks IH]; intros lasts j HL HW.
  - unfold shown. cbn. destruct j; reflexivity.
  - pose proof (HW k (or_introl eq_refl)) as W. destruct lasts as [|l lasts]; [congruence|].
    destruct (m_walls k) as [|w ws] eqn:EW; [discriminate|].
    assert (ST : exists o, step_ranks interval k (l :: lasts) = end_of_step interval (m_log k) (m_sections k) (due interval w l) w l :: o).
    { eexists. unfold step_ranks. rewrite EW. cbn [hd combine map fst snd]. reflexivity. }
    destruct ST as (o & ST).
    assert (LO : length (step_ranks interval k (l :: lasts)) = length (l :: lasts)).
    { unfold step_ranks. rewrite map_length, combine_length, EW, W. apply Nat.min_id. }
    cbn [run_ranks root_run]. rewrite EW. cbn [hd]. destruct j as [|j].
    + unfold shown. cbn [nth_error nth]. rewrite ST. cbn [map]. unfold end_of_step. destruct (Req_EM_T interval 0); [contradiction|]. reflexivity.
    + change (shown (?a :: ?b) (Datatypes.S j)) with (shown b j). cbn [nth].
      change (shown (map fst (step_ranks interval k (l :: lasts)) :: run_ranks interval ks (map snd (step_ranks interval k (l :: lasts)))) (Datatypes.S j))
        with (shown (run_ranks interval ks (map snd (step_ranks interval k (l :: lasts)))) j).
      rewrite IH.
      * f_equal. f_equal. rewrite ST. cbn [map hd]. unfold end_of_step. destruct (Req_EM_T interval 0); [contradiction|]. reflexivity.
      * rewrite ST. discriminate.
      * intros k' Hk'. rewrite map_length, LO. apply HW. right. exact Hk'.
Qed.

Lemma root_quiet interval ks : forall l j, (j < length ks)%nat ->
  (forall x, (x < j)%nat -> nth x (root_run interval ks l) false = false) ->
  nth j (root_run interval ks l) false = (logged ks j || due interval (root_clock ks j) l)%bool.
Proof.
  induction ks as [|k ks IH]; intros l j Hj Q; [cbn in Hj; lia|]. cbn [root_run] in *. destruct j as [|j].
  - reflexivity.
  - pose proof (Q 0%nat ltac:(lia)) as Q0. cbn [nth] in Q0. rewrite Q0 in *. cbn [nth].
    rewrite IH; [reflexivity|cbn in Hj; lia|]. intros x Hx. exact (Q (Datatypes.S x) ltac:(lia)).
Qed.

Lemma root_after interval ks : forall l i j, (i < j < length ks)%nat ->
  nth i (root_run interval ks l) false = true ->
  (forall x, (i < x < j)%nat -> nth x (root_run interval ks l) false = false) ->
  nth j (root_run interval ks l) false = (logged ks j || due interval (root_clock ks j) (Some (root_clock ks i)))%bool.
Proof.
  induction ks as [|k ks IH]; intros l i j Hj T Q; [cbn in Hj; lia|]. cbn [root_run length] in *. destruct j as [|j]; [lia|]. destruct i as [|i].
  - cbn [nth] in *. rewrite T. rewrite T in Q. rewrite root_quiet; [reflexivity|lia|]. intros x Hx. exact (Q (Datatypes.S x) ltac:(lia)).
  - cbn [nth] in *. rewrite (IH _ i j); [reflexivity|lia|exact T|]. intros x Hx. exact (Q (Datatypes.S x) ltac:(lia)).
Qed.

Lemma C155_interval_proof interval ks ranks i j : interval <> 0 -> (0 < ranks)%nat ->
  (forall k, In k ks -> length (m_walls k) = ranks) -> (i < j < length ks)%nat ->
  let run := run_ranks interval ks (repeat None ranks) in
  shown run 0 = true /\
  (shown run i = true -> (forall x, (i < x < j)%nat -> shown run x = false) ->
   (shown run j = true <-> logged ks j = true \/ root_clock ks i + interval <= root_clock ks j)).
Proof.
  intros Hi HR HW Hj run.
  assert (E : forall x, shown run x = nth x (root_run interval ks None) false).
  { intros x. unfold run. rewrite shown_root; [destruct ranks; reflexivity|exact Hi|destruct ranks; [lia|discriminate]|].
    intros k Hk. rewrite repeat_length. apply HW, Hk. }
  split.
  - rewrite E. destruct ks as [|k ks]; [cbn in Hj; lia|]. cbn. apply orb_true_r.
  - intros T Q. rewrite E. rewrite (root_after interval ks None i j Hj); [|rewrite <- E; exact T|intros x Hx; rewrite <- E; apply Q, Hx].
    rewrite orb_true_iff. cbn [due]. destruct (Rle_dec _ _); split; intros [H|H]; auto; discriminate.
Qed.

(** ** What does not hold *)
Definition two_clocks (w : R) : list clock := [{| wall := w; cpu := w |}; {| wall := w; cpu := 2 * w |}].

Lemma two_clocks_wall w : lmax (map wall (two_clocks w)) = w.
Proof. unfold two_clocks. cbn. apply Rmax_left. lra. Qed.

Lemma throughput_defined S m n t c : (d_cycle (current m) < n)%nat -> lmax (map wall c) <> d_wall (current m) ->
  lsum (map cpu c) <> d_sum (current m) ->
  exists r m', print_throughput S m n t c false = Some (r, m').
Proof.
  intros A B C. unfold print_throughput. cbn [take d_cycle d_t d_wall d_sum].
  destruct (Req_EM_T (INR _) 0) as [E|]; [apply (INR_eq _ 0) in E; lia|].
  destruct (Req_EM_T (lmax _ - _) 0); [lra|]. destruct (Req_EM_T (lsum _ - _) 0); [lra|]. eauto.
Qed.

Definition case_setup (T : R) : setup := {| t_final := T; n_dofs := 1000; efficiency := 3; n_threads := 1 |}.

Lemma first_report T n t w : (0 < n)%nat -> 0 < w -> 
  exists r m, print_throughput (case_setup T) memory0 n t (two_clocks w) false = Some (r, m) /\
    r_dt r = t / INR n /\ r_speed r = t / w /\ 
    r_eta r = if Req_EM_T (2 / 10 * (t / w)) 0 then None else to_unsigned (Rmax (T - t) 0 / (2 / 10 * (t / w))).
Proof.
  intros Hn Hw. destruct (throughput_defined (case_setup T) memory0 n t (two_clocks w)) as (r & m & E).
  - exact Hn.
  - rewrite two_clocks_wall. cbn. lra.
  - cbn. lra.
  - exists r, m. split; [exact E|]. apply throughput_fields in E. cbv zeta in E. rewrite two_clocks_wall in E. cbn [memory0 current data0 d_cycle d_t d_wall speed_exp case_setup t_final] in E.
    destruct E as (_ & _ & A & B & C & D & _). rewrite Nat.sub_0_r in A. rewrite !Rminus_0_r in *. rewrite A, B, D, C.
    replace (8 / 10 * 0 + 2 / 10 * (t / w)) with (2 / 10 * (t / w)) by ring. auto.
Qed.

Lemma to_unsigned_at q e : IZR e <= q < IZR e + 1 -> (0 <= e < 2 ^ 32)%Z -> to_unsigned q = Some e.
Proof.
  intros H B. assert (A : 0 <= IZR e) by (apply IZR_le; lia).
  assert (U : IZR e + 1 <= powerRZ 2 32).
  { change (powerRZ 2 32) with (2 ^ 32). rewrite pow_IZR. rewrite <- plus_IZR. apply IZR_le. change (2 ^ Z.of_nat 32)%Z with (2 ^ 32)%Z. lia. }
  unfold to_unsigned. destruct (Rlt_dec (-1) q); [|lra]. destruct (Rlt_dec q _); [|lra]. f_equal.
  assert (I : Int_part q = e).
  { destruct (base_Int_part q) as [C D]. apply Z.le_antisymm; apply Z.lt_succ_r; apply lt_IZR; rewrite succ_IZR; lra. }
  rewrite I. lia.
Qed.

(** A run at a constant speed: the first report is five times too long. *)
Lemma C155_eta_refuted_proof : exists S n t c r m, 
  0 < t < t_final S /\ print_throughput S memory0 n t c false = Some (r, m) /\
  r_speed r = t / lmax (map wall c) /\ exists e, r_eta r = Some e /\ IZR e = 5 * ((t_final S - t) / r_speed r).
Proof.
  destruct (first_report 100 10 1 10 ltac:(lia) ltac:(lra)) as (r & m & E & _ & V & ETA).
  exists (case_setup 100), 10%nat, 1, (two_clocks 10), r, m. split; [cbn; lra|]. split; [exact E|].
  rewrite two_clocks_wall. split; [exact V|]. exists 4950%Z. rewrite V. split; [|cbn; field].
  rewrite ETA. destruct (Req_EM_T _ 0); [lra|]. apply to_unsigned_at; [|lia]. rewrite Rmax_left by lra.
  replace ((100 - 1) / (2 / 10 * (1 / 10))) with 4950 by field. lra.
Qed.

(** A run resumed at t = 99 that advances by 1/100 in one step and one second. *)
Lemma C155_resume_refuted_proof : exists S taus t0 c r m,
  0 < t0 /\ elapsed t0 taus (length taus) < t_final S /\ lmax (map wall c) = 1 /\
  print_throughput S memory0 (length taus) (elapsed t0 taus (length taus)) c false = Some (r, m) /\
  fold_right Rplus 0 taus / INR (length taus) = 1 / 100 /\ r_dt r > 99 /\ r_eta r = Some 0%Z /\
  (t_final S - elapsed t0 taus (length taus)) / (1 / 100) = 99.
Proof.
  set (t := elapsed 99 [1 / 100] 1). assert (Et : t = 9901 / 100) by (unfold t, elapsed; cbn; field).
  destruct (first_report 100 1 t 1 ltac:(lia) ltac:(lra)) as (r & m & E & D & V & ETA).
  exists (case_setup 100), [1 / 100], 99, (two_clocks 1), r, m. cbn [length]. fold t. rewrite two_clocks_wall.
  split; [lra|]. split; [cbn; lra|]. split; [reflexivity|]. split; [exact E|]. split; [cbn; field|].
  split; [rewrite D, Et; cbn; lra|]. split; [|rewrite Et; cbn; field].
  rewrite ETA, Et. destruct (Req_EM_T (2 / 10 * (9901 / 100 / 1)) 0); [lra|]. apply to_unsigned_at; [|lia]. rewrite Rmax_left by lra.
  split; apply (Rmult_le_reg_r (2 / 10 * (9901 / 100 / 1))) || apply (Rmult_lt_reg_r (2 / 10 * (9901 / 100 / 1))); try lra;
    unfold Rdiv at 1; rewrite Rmult_assoc, Rinv_l by lra; lra.
Qed.

(** A first step of 10^-9 that takes a minute because of the first output. *)
Lemma C155_cast_refuted_proof : exists S n t c r m,
  0 < t < t_final S /\ print_throughput S memory0 n t c false = Some (r, m) /\ r_eta r = None.
Proof.
  set (t := / 10 ^ 9). assert (Et : t = 1 / 1000000000) by (unfold t; field).
  destruct (first_report 5 1 t 60 ltac:(lia) ltac:(lra)) as (r & m & E & _ & V & ETA).
  exists (case_setup 5), 1%nat, t, (two_clocks 60), r, m. split; [cbn; lra|]. split; [exact E|]. rewrite ETA, Et.
  destruct (Req_EM_T (2 / 10 * (1 / 1000000000 / 60)) 0); [reflexivity|]. unfold to_unsigned. destruct (Rlt_dec (-1) _); [|reflexivity].
  destruct (Rlt_dec _ (powerRZ 2 32)) as [L|]; [|reflexivity]. exfalso. change (powerRZ 2 32) with (2 ^ 32) in L. rewrite Rmax_left in L by lra.
  apply (Rmult_lt_compat_r (2 / 10 * (1 / 1000000000 / 60))) in L; [|lra].
  unfold Rdiv at 1 in L. rewrite Rmult_assoc, Rinv_l in L by lra. lra.
Qed.

Lemma throughput_current S m n t c f r m' : print_throughput S m n t c f = Some (r, m') -> current m' = take n t c.
Proof.
  unfold print_throughput. destruct (Req_EM_T (INR _) 0); [discriminate|]. destruct (Req_EM_T (d_wall _ - _) 0); [discriminate|].
  destruct (Req_EM_T (d_sum _ - _) 0); [discriminate|]. intros E. injection E as _ <-. reflexivity.
Qed.

(** ** Cases *)
Lemma averages_case : exists r1 m1 r2 m2, let taus := [1; 2; 3; 6] in
  print_throughput (case_setup 20) memory0 2 (elapsed 5 taus 2) (two_clocks 4) false = Some (r1, m1) /\
  print_throughput (case_setup 20) m1 4 (elapsed 5 taus 4) (two_clocks 7) false = Some (r2, m2) /\ r_dt r2 = 9 / 2 /\ r_speed r2 = 3.
Proof.
  destruct (throughput_defined (case_setup 20) memory0 2 (elapsed 5 [1; 2; 3; 6] 2) (two_clocks 4)) as (r1 & m1 & E1);
    [cbn; lia|rewrite two_clocks_wall; cbn; lra|cbn; lra|].
  pose proof (throughput_current _ _ _ _ _ _ _ _ E1) as M.
  destruct (throughput_defined (case_setup 20) m1 4 (elapsed 5 [1; 2; 3; 6] 4) (two_clocks 7)) as (r2 & m2 & E2);
    rewrite ?M; cbn [take d_cycle d_wall d_sum]; [lia|rewrite !two_clocks_wall; lra|cbn; lra|].
  exists r1, m1, r2, m2. cbv zeta. split; [exact E1|]. split; [exact E2|].
  destruct (C155_averages_proof (case_setup 20) memory0 [1; 2; 3; 6] 5 2 4 _ _ r1 m1 r2 m2 ltac:(cbn; lia) E1 E2) as (A & B & _).
  rewrite !two_clocks_wall in B. cbn in A, B. lra.
Qed.

Lemma two_clocks_extremes w : 0 <= w ->
  largest (map wall (two_clocks w)) w /\ largest (map cpu (two_clocks w)) (2 * w) /\ smallest (map cpu (two_clocks w)) w.
Proof.
  intros H. unfold two_clocks, largest, smallest. cbn [map wall cpu In].
  repeat split; auto; intros x [<-|[<-|[]]]; lra.
Qed.

Lemma cpu_case : exists r1 m1 r2 m2,
  print_throughput (case_setup 20) memory0 2 8 (two_clocks 4) false = Some (r1, m1) /\
  print_throughput (case_setup 20) m1 4 17 (two_clocks 7) false = Some (r2, m2) /\
  largest (map wall (two_clocks 4)) 4 /\ largest (map cpu (two_clocks 4)) 8 /\ smallest (map cpu (two_clocks 4)) 4 /\
  r_skew r2 = 3 / 2 /\ r_skew_percent r2 = 200 / 3.
Proof.
  destruct (throughput_defined (case_setup 20) memory0 2 8 (two_clocks 4)) as (r1 & m1 & E1);
    [cbn; lia|rewrite two_clocks_wall; cbn; lra|cbn; lra|].
  pose proof (throughput_current _ _ _ _ _ _ _ _ E1) as M.
  destruct (throughput_defined (case_setup 20) m1 4 17 (two_clocks 7)) as (r2 & m2 & E2);
    rewrite ?M; cbn [take d_cycle d_wall d_sum]; [lia|rewrite !two_clocks_wall; lra|cbn; lra|].
  exists r1, m1, r2, m2. split; [exact E1|]. split; [exact E2|].
  destruct (two_clocks_extremes 4 ltac:(lra)) as (A & B & C). destruct (two_clocks_extremes 7 ltac:(lra)) as (A' & B' & C').
  pose proof (C155_cpu_proof _ _ 2 4 _ _ (two_clocks 4) (two_clocks 7) _ _ _ _ _ _ _ _ _ _ ltac:(lia) eq_refl E1 E2 A A' B B' C C') as P. cbv zeta in P.
  destruct P as (_ & _ & P & Q). rewrite Rmax_right in P, Q by lra. cbn in P, Q.
  replace 8 with (2 * 4) by lra. repeat (split; [assumption|]). lra.
Qed.

Lemma final_case : exists r m, 
  print_throughput (case_setup 6) memory0 3 (elapsed 0 [1; 2; 3] 3) (two_clocks 12) true = Some (r, m) /\ r_dt r = 2 /\ r_speed r = 1 / 2.
Proof.
  destruct (throughput_defined (case_setup 6) memory0 3 (elapsed 0 [1; 2; 3] 3) (two_clocks 12)) as (r & m & E);
    [cbn; lia|rewrite two_clocks_wall; cbn; lra|cbn; lra|].
  exists r, m. split; [exact E|]. change (print_throughput (case_setup 6) memory0 3 (elapsed 0 [1; 2; 3] 3) (two_clocks 12) true = Some (r, m)) in E.
  destruct (C155_final_proof (case_setup 6) memory0 [1; 2; 3] _ r m ltac:(discriminate) E) as (A & B).
  rewrite two_clocks_wall in B. cbn in A, B. lra.
Qed.

Lemma eta_case : exists rs m, let calls := [(10%nat, 1, two_clocks 10)] in
  progress (1 / 10) (2 / 10) 0 0 0 (calls ++ [(30%nat, 5, two_clocks 30)]) /\
  reports (case_setup 100) memory0 (calls ++ [(30%nat, 5, two_clocks 30)]) = Some (rs, m) /\
  (100 - 5) / (1 / 10 * (1 - (8 / 10) ^ 2)) < powerRZ 2 32.
Proof.
  destruct (throughput_defined (case_setup 100) memory0 10 1 (two_clocks 10)) as (r1 & m1 & E1);
    [cbn; lia|rewrite two_clocks_wall; cbn; lra|cbn; lra|].
  pose proof (throughput_current _ _ _ _ _ _ _ _ E1) as M.
  destruct (throughput_defined (case_setup 100) m1 30 5 (two_clocks 30)) as (r2 & m2 & E2);
    rewrite ?M; cbn [take d_cycle d_wall d_sum]; [lia|rewrite !two_clocks_wall; lra|cbn; lra|].
  exists [r1; r2], m2. cbv zeta. cbn [app progress reports]. rewrite !two_clocks_wall, E1, E2. repeat split; try lia; try lra.
  apply (Rlt_trans _ 10000).
  - apply (Rmult_lt_reg_r (1 / 10 * (1 - (8 / 10) ^ 2))); [lra|]. unfold Rdiv at 1. rewrite Rmult_assoc, Rinv_l by lra. lra.
  - change (powerRZ 2 32) with (2 ^ 32). lra.
Qed.

Lemma interval_case : let ks := [{| m_log := false; m_sections := ["time loop"%string]; m_walls := [1; 2] |};
      {| m_log := false; m_sections := ["time loop"%string]; m_walls := [3; 7] |};
      {| m_log := true; m_sections := ["time loop"%string]; m_walls := [4; 8] |}] in
  map (shown (run_ranks 5 ks [None; None])) [0%nat; 1%nat; 2%nat] = [true; false; true].
Proof.
  cbv zeta. cbn [map]. unfold shown. cbn [run_ranks step_ranks m_walls m_log m_sections hd due combine map fst snd].
  unfold end_of_step. destruct (Req_EM_T 5 0); [lra|]. cbn. destruct (Rle_dec _ _); [lra|]. reflexivity.
Qed.

Lemma head_case : head_lines "Cycle  000012  (3.4%)" "at time t = 0.06800000" =
  [ "    ####################################################";
    "    #########      Cycle  000012  (3.4%)       #########";
    "    #########      at time t = 0.06800000      #########";
    "    ####################################################" ]%string.
Proof. reflexivity. Qed.

Lemma table_case : table ["time loop"; "time step [H] 1"]%string ["12.00s"; "9.00s"]%string ["24.00s"; "18.00s (75.0%)"]%string =
  [ "  time loop       12.00s 24.00s         "; "  time step [H] 1 9.00s  18.00s (75.0%) " ]%string.
Proof. reflexivity. Qed.

Lemma eta_text_case : eta_parts 100000 = (1, 3, 46)%Z.
Proof. reflexivity. Qed.
