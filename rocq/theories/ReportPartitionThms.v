(** * Property theorems: the report on the partition and the timers (C155) *)
From Coq Require Import Reals ZArith String List Bool Arith.
From Verif Require Import Report ReportPartition ReportPartitionSpec ReportPartitionProofs.
Import ListNotations.
Local Open Scope R_scope.

(** ** The partition and the timers (C155) *)

(** The report on the partition names the smallest and the largest number over all ranks, the first ranks that have them, and the average rounded down. *)
Theorem C155_partition : forall sel ranks,
  ranks <> [] -> (forall c, In c ranks -> INR (sel c) < 4294967296) ->
  exists p a b, fst (line sel ranks) = Some p /\
    nth_error ranks (p_min_index p) = Some a /\ nth_error ranks (p_max_index p) = Some b /\
    p_min p = Z.of_nat (sel a) /\ p_max p = Z.of_nat (sel b) /\
    (forall i c, nth_error ranks i = Some c -> (sel a <= sel c <= sel b)%nat) /\
    (forall i c, (i < p_min_index p)%nat -> nth_error ranks i = Some c -> (sel a < sel c)%nat) /\
    (forall i c, (i < p_max_index p)%nat -> nth_error ranks i = Some c -> (sel c < sel b)%nat) /\
    (let n := Z.of_nat (length ranks) in let total := Z.of_nat (list_sum (map sel ranks)) in
     p_avg p * n <= total < (p_avg p + 1) * n)%Z.
Proof. exact C155_partition_proof. Qed.
Print Assumptions C155_partition.

(** Four ranks. *)
Example C155_partition_ex :
  four_ranks <> [] /\
  (forall c, In c four_ranks -> INR (n_own c) < 4294967296 /\ (0 < n_rel c)%nat /\ (n_own c <= n_rel c)%nat).
Proof. exact partition_case. Qed.

(** The percentages are those of the ranks named, the extremes over all ranks, ordered, and between 0 and 100, if no rank is empty. *)
Theorem C155_shares : forall sel ranks,
  ranks <> [] -> (forall c, In c ranks -> (0 < n_rel c)%nat /\ (sel c <= n_rel c)%nat) ->
  exists s a b, snd (line sel ranks) = Some s /\
    0 <= v_min s /\ v_min s <= v_avg s /\ v_avg s <= v_max s /\ v_max s <= 100 /\
    nth_error ranks (v_min_index s) = Some a /\ nth_error ranks (v_max_index s) = Some b /\
    v_min s * INR (n_rel a) = 100 * INR (sel a) /\ v_max s * INR (n_rel b) = 100 * INR (sel b) /\
    (forall c, In c ranks -> v_min s * INR (n_rel c) <= 100 * INR (sel c) <= v_max s * INR (n_rel c)).
Proof. exact C155_shares_proof. Qed.
Print Assumptions C155_shares.

(** With an empty rank (more ranks than cells) the percentages are not a number. *)
Theorem C155_shares_refuted :
  exists ranks,
  (exists c, In c ranks /\ (0 < n_rel c)%nat) /\
  (forall c, In c ranks -> (n_own c <= n_rel c)%nat /\ (n_int c <= n_own c)%nat /\ (n_exp c <= n_own c)%nat) /\
  snd (line n_own ranks) = None.
Proof. exact C155_shares_refuted_proof. Qed.
Print Assumptions C155_shares_refuted.

(** The skew of a timer bounds the wall times of all ranks around the average, sharply unless it is cut off. *)
Theorem C155_skew : forall eps walls,
  0 <= eps <= 999 / 10 -> walls <> [] -> (forall w, In w walls -> 0 < w) ->
  exists avg lo hi, wall_skew eps walls = Some (avg, lo, hi) /\
    avg * INR (length walls) = fold_right Rplus 0 walls /\
    -999 / 10 <= lo <= 0 /\ 0 <= hi <= 999 / 10 /\
    (forall w, In w walls ->
      (-999 / 10 < lo -> avg * (1 + (lo + eps) / 100) <= w) /\ (hi < 999 / 10 -> w <= avg * (1 + (hi - eps) / 100))) /\
    (-999 / 10 < lo -> exists w, In w walls /\ w = avg * (1 + (lo + eps) / 100)) /\
    (hi < 999 / 10 -> exists w, In w walls /\ w = avg * (1 + (hi - eps) / 100)).
Proof. exact C155_skew_proof. Qed.
Print Assumptions C155_skew.

(** Three ranks. *)
Example C155_skew_ex :
  0 <= 1 / 1000 <= 999 / 10 /\ [1; 2; 3] <> [] /\ forall w, In w [1; 2; 3] -> 0 < w.
Proof. exact skew_case. Qed.

(** The CPU time of a timer is the sum over the ranks; exactly the timers listed after the time loop show their share of it, between 0 and 100 percent. *)
Theorem C155_cpu_share : forall before loop after i n c,
  0 < lsum loop ->
  (forall m d, In (m, d) before -> String.prefix "time loop" m = false) ->
  nth_error after i = Some (n, c) -> Forall2 (fun x y => 0 <= x <= y) c loop ->
  let rows := cpu_column (lsum loop) false (before ++ ("time loop"%string, loop) :: after) in
  (forall j, (j <= length before)%nat -> exists x, nth_error rows j = Some (x, None)) /\
  exists p, nth_error rows (length before + 1 + i) = Some (fold_right Rplus 0 c, Some p) /\
    p * fold_right Rplus 0 loop = 100 * fold_right Rplus 0 c /\ 0 <= p <= 100.
Proof. exact C155_cpu_share_proof. Qed.
Print Assumptions C155_cpu_share.

(** Two ranks. *)
Example C155_cpu_share_ex :
  0 < lsum [10; 12] /\
  (forall m d, In (m, d) [("(re)initialize data structures"%string, [1; 1])] -> String.prefix "time loop" m = false) /\
  nth_error [("time step [H] 1"%string, [5; 6])] 0 = Some ("time step [H] 1"%string, [5; 6]) /\
  Forall2 (fun x y => 0 <= x <= y) [5; 6] [10; 12].
Proof. exact cpu_share_case. Qed.
