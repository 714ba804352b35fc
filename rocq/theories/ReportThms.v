(** * Property theorems: reports on the progress of a run (C155) *)
From Coq Require Import Reals ZArith String List Bool Arith.
From Verif Require Import Report ReportSpec ReportProofs.
Import ListNotations.
Local Open Scope R_scope.

(** ** Reports on the progress of a run (C155) *)

(** The numbers of a report are the averages over the steps since the last report, *)
Theorem C155_averages : forall S m taus t0 n1 n2 c1 c2 r1 m1 r2 m2,
  (n1 < n2 <= length taus)%nat ->
  print_throughput S m n1 (elapsed t0 taus n1) c1 false = Some (r1, m1) ->
  print_throughput S m1 n2 (elapsed t0 taus n2) c2 false = Some (r2, m2) ->
  let total := fold_right Rplus 0 (firstn (n2 - n1) (skipn n1 taus)) in
  let seconds := lmax (map wall c2) - lmax (map wall c1) in
  r_dt r2 * INR (n2 - n1) = total /\ r_speed r2 * seconds = total /\ r_cycles_per_second r2 * seconds = INR (n2 - n1) /\
  r_wall_throughput r2 * seconds * 1000000 = INR (n2 - n1) * n_dofs S * efficiency S.
Proof. exact C155_averages_proof. Qed.
Print Assumptions C155_averages.

(** A report after two steps and one after four. *)
Example C155_averages_ex :
  exists r1 m1 r2 m2, let taus := [1; 2; 3; 6] in
  print_throughput (case_setup 20) memory0 2 (elapsed 5 taus 2) (two_clocks 4) false = Some (r1, m1) /\
  print_throughput (case_setup 20) m1 4 (elapsed 5 taus 4) (two_clocks 7) false = Some (r2, m2) /\ r_dt r2 = 9 / 2 /\ r_speed r2 = 3.
Proof. exact averages_case. Qed.

(** The CPU throughput counts the CPU time of all ranks since the last report, the skew is the growth of the gap between the busiest and the idlest rank. *)
Theorem C155_cpu : forall S m n1 n2 t1 t2 c1 c2 r1 m1 r2 m2 slow1 slow2 big1 big2 small1 small2,
  (n1 < n2)%nat ->
  length c1 = length c2 ->
  print_throughput S m n1 t1 c1 false = Some (r1, m1) -> print_throughput S m1 n2 t2 c2 false = Some (r2, m2) ->
  largest (map wall c1) slow1 -> largest (map wall c2) slow2 ->
  largest (map cpu c1) big1 -> largest (map cpu c2) big2 ->
  smallest (map cpu c1) small1 -> smallest (map cpu c2) small2 ->
  let used := fold_right Rplus 0 (map cpu c2) - fold_right Rplus 0 (map cpu c1) in
  let cycles := INR (n2 - n1) in
  r_cycles_per_second r2 * (slow2 - slow1) = cycles /\
  r_cpu_throughput r2 * used * 1000000 = cycles * n_dofs S * efficiency S * n_threads S /\
  r_skew r2 * cycles = Rmax 0 ((big2 - small2) - (big1 - small1)) /\
  r_skew_percent r2 * used = 100 * INR (length c2) * Rmax 0 ((big2 - small2) - (big1 - small1)).
Proof. exact C155_cpu_proof. Qed.
Print Assumptions C155_cpu.

(** Two ranks. *)
Example C155_cpu_ex :
  exists r1 m1 r2 m2,
  print_throughput (case_setup 20) memory0 2 8 (two_clocks 4) false = Some (r1, m1) /\
  print_throughput (case_setup 20) m1 4 17 (two_clocks 7) false = Some (r2, m2) /\
  largest (map wall (two_clocks 4)) 4 /\ largest (map cpu (two_clocks 4)) 8 /\ smallest (map cpu (two_clocks 4)) 4 /\
  r_skew r2 = 3 / 2 /\ r_skew_percent r2 = 200 / 3.
Proof. exact cpu_case. Qed.

(** and those of the last report the averages over the whole run if it started at t = 0. *)
Theorem C155_final : forall S m taus c r m',
  taus <> [] ->
  print_throughput S m (length taus) (elapsed 0 taus (length taus)) c true = Some (r, m') ->
  r_dt r * INR (length taus) = fold_right Rplus 0 taus /\ r_speed r * lmax (map wall c) = fold_right Rplus 0 taus.
Proof. exact C155_final_proof. Qed.
Print Assumptions C155_final.

(** Three steps. *)
Example C155_final_ex :
  exists r m, 
  print_throughput (case_setup 6) memory0 3 (elapsed 0 [1; 2; 3] 3) (two_clocks 12) true = Some (r, m) /\ r_dt r = 2 /\ r_speed r = 1 / 2.
Proof. exact final_case. Qed.

(** If the speed stays between lo and hi the remaining time is not underestimated, and overestimated by the factor 1 / (1 - 0.8^k) in the k-th report. *)
Theorem C155_eta : forall S lo hi calls n t c rs m,
  0 < lo ->
  progress lo hi 0 0 0 (calls ++ [(n, t, c)]) -> t <= t_final S ->
  reports S memory0 (calls ++ [(n, t, c)]) = Some (rs, m) ->
  let k := length (calls ++ [(n, t, c)]) in
  exists rs' r, rs = (rs' ++ [r])%list /\
    (forall e, r_eta r = Some e ->
       (t_final S - t) / hi - 1 < IZR e <= (t_final S - t) / (lo * (1 - (8 / 10) ^ k))) /\
    ((t_final S - t) / (lo * (1 - (8 / 10) ^ k)) < powerRZ 2 32 -> exists e, r_eta r = Some e).
Proof. exact C155_eta_proof. Qed.
Print Assumptions C155_eta.

(** Two reports. *)
Example C155_eta_ex :
  exists rs m, let calls := [(10%nat, 1, two_clocks 10)] in
  progress (1 / 10) (2 / 10) 0 0 0 (calls ++ [(30%nat, 5, two_clocks 30)]) /\
  reports (case_setup 100) memory0 (calls ++ [(30%nat, 5, two_clocks 30)]) = Some (rs, m) /\
  (100 - 5) / (1 / 10 * (1 - (8 / 10) ^ 2)) < powerRZ 2 32.
Proof. exact eta_case. Qed.

(** The first report is too long by the factor five although the speed is constant. *)
Theorem C155_eta_refuted :
  exists S n t c r m, 
  0 < t < t_final S /\ print_throughput S memory0 n t c false = Some (r, m) /\
  r_speed r = t / lmax (map wall c) /\ exists e, r_eta r = Some e /\ IZR e = 5 * ((t_final S - t) / r_speed r).
Proof. exact C155_eta_refuted_proof. Qed.
Print Assumptions C155_eta_refuted.

(** After a resume the time before the run counts as progress: the report claims dt > 99 and no time left. *)
Theorem C155_resume_refuted :
  exists S taus t0 c r m,
  0 < t0 /\ elapsed t0 taus (length taus) < t_final S /\ lmax (map wall c) = 1 /\
  print_throughput S memory0 (length taus) (elapsed t0 taus (length taus)) c false = Some (r, m) /\
  fold_right Rplus 0 taus / INR (length taus) = 1 / 100 /\ r_dt r > 99 /\ r_eta r = Some 0%Z /\
  (t_final S - elapsed t0 taus (length taus)) / (1 / 100) = 99.
Proof. exact C155_resume_refuted_proof. Qed.
Print Assumptions C155_resume_refuted.

(** A slow first step leads to a conversion with undefined behavior. *)
Theorem C155_cast_refuted :
  exists S n t c r m,
  0 < t < t_final S /\ print_throughput S memory0 n t c false = Some (r, m) /\ r_eta r = None.
Proof. exact C155_cast_refuted_proof. Qed.
Print Assumptions C155_cast_refuted.

(** Days, hours and minutes are those of the remaining time. *)
Theorem C155_eta_text : forall eta,
  (0 <= eta)%Z ->
  let '(d, h, m) := eta_parts eta in
  (0 <= d /\ 0 <= h < 24 /\ 0 <= m < 60 /\ 86400 * d + 3600 * h + 60 * m <= eta < 86400 * d + 3600 * h + 60 * m + 60)%Z.
Proof. exact C155_eta_text_proof. Qed.
Print Assumptions C155_eta_text.

(** 100000 seconds. *)
Example C155_eta_text_ex :
  eta_parts 100000 = (1, 3, 46)%Z.
Proof. exact eta_text_case. Qed.

(** The lines of the header have the same width, *)
Theorem C155_head : forall h s,
  (String.length h <= 34)%nat -> (String.length s <= 34)%nat ->
  Forall (fun l => String.length l = 56%nat) (head_lines h s).
Proof. exact C155_head_proof. Qed.
Print Assumptions C155_head.

(** A header. *)
Example C155_head_ex :
  head_lines "Cycle  000012  (3.4%)" "at time t = 0.06800000" =
  [ "    ####################################################";
    "    #########      Cycle  000012  (3.4%)       #########";
    "    #########      at time t = 0.06800000      #########";
    "    ####################################################" ]%string.
Proof. exact head_case. Qed.

(** the lines of the table of timers too, *)
Theorem C155_table : forall names walls cpus l l',
  In l (table names walls cpus) -> In l' (table names walls cpus) -> String.length l = String.length l'.
Proof. exact C155_table_proof. Qed.
Print Assumptions C155_table.

(** and its columns are aligned and separated. *)
Theorem C155_columns : forall names walls cpus,
  exists p q, forall i n w c, nth_error names i = Some n -> nth_error walls i = Some w -> nth_error cpus i = Some c ->
    length walls = length names -> 
    exists a b d, nth_error (table names walls cpus) i = Some (append a (append w (append b (append c d)))) /\
      String.length a = p /\ (String.length a + String.length w + String.length b)%nat = q /\
      exists s, a = append "  " (append n (fill (Datatypes.S s) " ")).
Proof. exact C155_columns_proof. Qed.
Print Assumptions C155_columns.

(** Two timers. *)
Example C155_table_ex :
  table ["time loop"; "time step [H] 1"]%string ["12.00s"; "9.00s"]%string ["24.00s"; "18.00s (75.0%)"]%string =
  [ "  time loop       12.00s 24.00s         "; "  time step [H] 1 9.00s  18.00s (75.0%) " ]%string.
Proof. exact table_case. Qed.

(** All ranks make the same collective calls in every step, whatever their clocks. *)
Theorem C155_collectives : forall interval ks lasts step x y,
  In step (run_ranks interval ks lasts) -> In x step -> In y step -> x = y.
Proof. exact C155_collectives_proof. Qed.
Print Assumptions C155_collectives.

(** After a report the next one follows with the first step in which an output is due or the interval has elapsed on rank 0. *)
Theorem C155_interval : forall interval ks ranks i j,
  interval <> 0 -> (0 < ranks)%nat ->
  (forall k, In k ks -> length (m_walls k) = ranks) -> (i < j < length ks)%nat ->
  let run := run_ranks interval ks (repeat None ranks) in
  shown run 0 = true /\
  (shown run i = true -> (forall x, (i < x < j)%nat -> shown run x = false) ->
   (shown run j = true <-> logged ks j = true \/ root_clock ks i + interval <= root_clock ks j)).
Proof. exact C155_interval_proof. Qed.
Print Assumptions C155_interval.

(** Two ranks, three steps. *)
Example C155_interval_ex :
  let ks := [{| m_log := false; m_sections := ["time loop"%string]; m_walls := [1; 2] |};
      {| m_log := false; m_sections := ["time loop"%string]; m_walls := [3; 7] |};
      {| m_log := true; m_sections := ["time loop"%string]; m_walls := [4; 8] |}] in
  map (shown (run_ranks 5 ks [None; None])) [0%nat; 1%nat; 2%nat] = [true; false; true].
Proof. exact interval_case. Qed.
