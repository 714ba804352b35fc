(** * Model: reports on the progress of a run

    source/time_loop.template.h:381-425 and 995-1384.  Simplifications: exact
    arithmetic; numbers are not rounded for printing; colours, version strings and
    the statistics on memory are left out. *)
From Coq Require Import Reals ZArith String List Bool Arith.
Import ListNotations.
Local Open Scope R_scope.

(** The timer "time loop" of one rank.  source/time_loop.template.h:1135-1145. *)
Record clock := { wall : R; cpu : R }.

(** Utilities::MPI::min_max_avg() as used in
    source/time_loop.template.h:1135-1145, over the values of all ranks. *)
Definition lsum (l : list R) : R := fold_right Rplus 0 l.
(** See the comment above, source/time_loop.template.h:1135-1145. *)
Definition lmax (l : list R) : R := match l with [] => 0 | x :: r => fold_right Rmax x r end.
(** See the comment above, source/time_loop.template.h:1135-1145. *)
Definition lmin (l : list R) : R := match l with [] => 0 | x :: r => fold_right Rmin x r end.
(** See the comment above, source/time_loop.template.h:1135-1145. *)
Definition lavg (l : list R) : R := lsum l / INR (length l).

(** struct Data, source/time_loop.template.h:1115-1123. *)
Record data := {
  d_cycle : nat; d_t : R; d_sum : R; d_avg : R; d_min : R; d_max : R; d_wall : R }.
(** See the comment above, source/time_loop.template.h:1115-1123. *)
Definition data0 : data := {| d_cycle := 0; d_t := 0; d_sum := 0; d_avg := 0; d_min := 0; d_max := 0; d_wall := 0 |}.

(** The static objects current and time_per_second_exp,
    source/time_loop.template.h:1123-1125; previous is set anew in every call. *)
Record memory := { current : data; speed_exp : R }.
(** See the comment above, source/time_loop.template.h:1123-1125. *)
Definition memory0 : memory := {| current := data0; speed_exp := 0 |}.

(** Update of current, source/time_loop.template.h:1132-1146. *)
Definition take (cycle : nat) (t : R) (clocks : list clock) : data :=
  let c := map cpu clocks in
  {| d_cycle := cycle; d_t := t; d_sum := lsum c; d_avg := lavg c; d_min := lmin c; d_max := lmax c;
     d_wall := lmax (map wall clocks) |}.

(** What is printed by print_throughput().  source/time_loop.template.h:1108-1268. *)
Record report := {
  r_cycles_per_second : R;
  r_wall_throughput : R;       (* MQ/s, line 1160 *)
  r_cpu_throughput : R;        (* MQ/s, line 1164 *)
  r_skew : R;                  (* seconds per cycle *)
  r_skew_percent : R;
  r_dt : R;                    (* "dt =" *)
  r_speed : R;                 (* "dt/s" *)
  r_eta : option Z }.          (* seconds; None: conversion to unsigned int with undefined behavior *)

(** The conversion to unsigned int in source/time_loop.template.h:1243-1244. *)
Definition to_unsigned (q : R) : option Z :=
  if Rlt_dec (-1) q then if Rlt_dec q (powerRZ 2 32) then Some (Z.max 0 (Int_part q)) else None else None.

(** Parameters and constants of a run: final time, number of degrees of freedom,
    efficiency of the time stepping scheme, number of threads with which the CPU
    throughput is multiplied (1 if "terminal show rank throughput" is not set).
    source/time_loop.template.h:1108-1268. *)
Record setup := { t_final : R; n_dofs : R; efficiency : R; n_threads : R }.

(** print_throughput(), source/time_loop.template.h:1107-1268.  [None] stands
    for a division by zero; the code goes on with infinities or NaN.  The average of
    the CPU times is their sum divided by the number of ranks: it does not vanish
    where the sum does not. *)
Definition print_throughput (S : setup) (m : memory) (cycle : nat) (t : R) (clocks : list clock) (final_time : bool)
  : option (report * memory) :=
  let previous := if final_time then data0 else current m in
  let cur := take cycle t clocks in
  let delta_cycles := INR (d_cycle cur - d_cycle previous) in
  let wall_delta := d_wall cur - d_wall previous in
  let cpu_delta := d_sum cur - d_sum previous in
  if Req_EM_T delta_cycles 0 then None else if Req_EM_T wall_delta 0 then None else if Req_EM_T cpu_delta 0 then None else
  let time_per_second := (d_t cur - d_t previous) / wall_delta in
  let e := 8 / 10 * speed_exp m + 2 / 10 * time_per_second in
  Some ({| r_cycles_per_second := delta_cycles / wall_delta;
           r_wall_throughput := delta_cycles * n_dofs S / 1000000 / wall_delta * efficiency S;
           r_cpu_throughput := delta_cycles * n_dofs S / 1000000 / cpu_delta * efficiency S * n_threads S;
           r_skew := Rmax 0 ((d_max cur - d_min cur - d_max previous + d_min previous) / delta_cycles);
           r_skew_percent := 100 * (Rmax 0 ((d_max cur - d_min cur - d_max previous + d_min previous) / delta_cycles)
                                    * delta_cycles / (d_avg cur - d_avg previous));
           r_dt := (d_t cur - d_t previous) / delta_cycles;
           r_speed := time_per_second;
           r_eta := if Req_EM_T e 0 then None else to_unsigned (Rmax (t_final S - t) 0 / e) |},
        {| current := cur; speed_exp := e |}).

(** Several calls, with the cycle, the time and the clocks of each.
    source/time_loop.template.h:1108-1268, called in line 1372. *)
Fixpoint reports (S : setup) (m : memory) (calls : list (nat * R * list clock)) : option (list report * memory) :=
  match calls with
  | [] => Some ([], m)
  | (n, t, c) :: rest =>
      match print_throughput S m n t c false with
      | None => None
      | Some (r, m') => match reports S m' rest with None => None | Some (rs, m'') => Some (r :: rs, m'') end
      end
  end.

(** Days, hours and minutes, source/time_loop.template.h:1248-1261; a number that
    is not printed is zero. *)
Definition eta_parts (eta : Z) : Z * Z * Z :=
  let days := (eta / (24 * 3600))%Z in
  let eta := if (0 <? days)%Z then (eta mod (24 * 3600))%Z else eta in
  let hours := (eta / 3600)%Z in
  let eta := if (0 <? hours)%Z then (eta mod 3600)%Z else eta in
  let minutes := (eta / 60)%Z in
  (days, hours, minutes).

(** A string of n equal characters, std::string(n, c).
    Used in source/time_loop.template.h:1036, 1291-1297. *)
Fixpoint fill (n : nat) (c : string) : string :=
  match n with O => EmptyString | S k => append c (fill k c) end.

(** The padding in print_head(), source/time_loop.template.h:1289-1298. *)
Definition padded (header : string) : string :=
  let header_size := Z.of_nat (String.length header) in
  append (fill (Z.to_nat (Z.quot (Z.max 0 (34 - header_size)) 2)) " ")
    (append header (fill (Z.to_nat (Z.quot (Z.max 0 (35 - header_size)) 2)) " ")).

(** The lines of print_head(), source/time_loop.template.h:1301-1304. *)
Definition head_lines (header secondary : string) : list string :=
  [ "    ####################################################"%string;
    append "    #########" (append (padded header) "#########");
    append "    #########" (append (padded secondary) "#########");
    "    ####################################################"%string ].

(** The lambda equalize() in print_timers(), source/time_loop.template.h:1027-1037. *)
Definition equalize (output : list string) : list string :=
  let len := fold_right Nat.max 0%nat (map String.length output) in
  map (fun it => append it (fill (len - String.length it + 1) " ")) output.

(** One pass over the timers: every line gets one more column,
    source/time_loop.template.h:1080-1096. *)
Definition column (output cells : list string) : list string :=
  equalize (map (fun p => append (fst p) (snd p)) (combine output cells)).

(** The table of print_timers(): names, wall times, CPU times.
    source/time_loop.template.h:1023-1100. *)
Definition table (names walls cpus : list string) : list string :=
  column (column (column (map (fun _ => EmptyString) names) (map (append "  ") names)) walls) cpus.

(** ** Who prints, and when

    Collective operations: MPI_Bcast in source/time_loop.template.h:398-401, and
    the calls of min_max_avg(). *)
Inductive collective := Bcast | MinMaxAvg (what : string).

(** The calls in print_cycle_statistics(): print_memory_statistics(),
    lines 1001-1002; print_timers(), lines 1041-1042, 1062-1063, 1069-1070, with
    the sections of the timers of this rank; print_throughput(), lines 1135-1140.
    The ranks other than 0 return only after them. *)
Definition statistics_calls (sections : list string) : list collective :=
  MinMaxAvg "memory" :: MinMaxAvg "time loop cpu" ::
  (map (fun s => MinMaxAvg (append "wall " s)) sections ++ map (fun s => MinMaxAvg (append "cpu " s)) sections ++
   [MinMaxAvg "time loop wall"; MinMaxAvg "time loop cpu"])%list.

(** The state of one rank: the time of its last report.  None is lowest().
    source/time_loop.template.h:289-291. *)
Definition last_output := option R.

(** The end of one iteration of the main loop on one rank,
    source/time_loop.template.h:387-409.  [root] is the value which rank 0
    broadcasts; the result is the list of collective calls, whether a report is
    made, and the new time of the last report. *)
Definition due (interval w : R) (last : last_output) : bool :=
  match last with None => true | Some l => if Rle_dec (l + interval) w then true else false end.

(** See the comment above, source/time_loop.template.h:387-409. *)
Definition end_of_step (interval : R) (log : bool) (sections : list string) (root : bool) (w : R) (last : last_output)
  : list collective * bool * last_output :=
  if Req_EM_T interval 0 then ([], false, last)
  else
    let shown := (log || root)%bool in
    (Bcast :: (if shown then statistics_calls sections else []), shown, if shown then Some w else last).

(** One step seen by all ranks: whether an output is due (t is the same on all
    ranks), the sections, and the wall clock of each rank.
    source/time_loop.template.h:381-408. *)
Record moment := { m_log : bool; m_sections : list string; m_walls : list R }.

(** The value of rank 0 is distributed to all ranks.  source/time_loop.template.h:399. *)
Definition step_ranks (interval : R) (k : moment) (lasts : list last_output)
  : list (list collective * bool * last_output) :=
  let root := due interval (hd 0 (m_walls k)) (hd None lasts) in
  map (fun p => end_of_step interval (m_log k) (m_sections k) root (fst p) (snd p)) (combine (m_walls k) lasts).

(** A run: for every step the calls and decisions of all ranks.
    source/time_loop.template.h:381-408. *)
Fixpoint run_ranks (interval : R) (ks : list moment) (lasts : list last_output)
  : list (list (list collective * bool)) :=
  match ks with
  | [] => []
  | k :: rest =>
      let o := step_ranks interval k lasts in
      map fst o :: run_ranks interval rest (map snd o)
  end.
