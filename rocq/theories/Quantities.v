(** * Quantities: averages in time and space on manifolds

    source/quantities.template.h.  One list of manifolds is modelled; the code
    runs the same functions over the interior and the boundary manifolds.  The
    option string of a manifold is given by three flags, and a primitive state by
    one component.  The points of all ranks form one list; the reductions of
    internal_accumulate over MPI are sums over this list. *)
From Coq Require Import Reals String List Bool Arith.
Import ListNotations.
Local Open Scope R_scope.

(** A component of the primitive state and its square (second moment):
    source/quantities.h:137-147, 178-187. *)
Definition value := (R * R)%type.

(** Sum of values, source/quantities.h:137-147. *)
Definition vplus (a b : value) : value := (fst a + fst b, snd a + snd b).
(** Multiple of a value, source/quantities.h:137-147. *)
Definition vscale (c : R) (a : value) : value := (c * fst a, c * snd a).

(** An entry of interior_manifolds_ / boundary_manifolds_ with the masses of the
    points selected by prepare(): source/quantities.template.h:64-79, 100-210. *)
Record manifold := {
  m_name : string;
  m_time : bool;    (* "time_averaged" *)
  m_space : bool;   (* "space_averaged" *)
  m_inst : bool;    (* "instantaneous" *)
  m_masses : list R }.

(** The tuple val_old, val_new, val_sum, t_old, t_new, t_sum:
    source/quantities.h:148-160, 188-200. *)
Record statistics := {
  val_old : list value; val_new : list value; val_sum : list value;
  t_old : R; t_new : R; t_sum : R }.

(** interior_statistics_, interior_time_series_, mesh_files_have_been_written_,
    time_series_cycle_.  [None] in a time series is a NaN (division by zero).
    source/quantities.h:200-214. *)
Record qstate := {
  q_stats : string -> statistics;
  q_series : string -> list (R * option value);
  q_written : bool;
  q_cycle : option nat }.

(** Files written by write_out; the number is the cycle in the file name.
    source/quantities.template.h:565-682. *)
Inductive qfile :=
| QMesh : nat -> qfile
| QInstant : string -> nat -> R -> list value -> qfile
    (** header "at t", values *)
| QAverage : string -> nat -> R -> R -> list value -> qfile
    (** header "averaged from t to t", values *)
| QSeries : string -> nat -> bool -> list (R * option value) -> qfile.
    (** flag: append to an existing file without writing a header *)

(** Assignment to an entry of a std::map by name, the maps of source/quantities.h:200-206. *)
Definition fupd {A} (f : string -> A) (n : string) (a : A) : string -> A :=
  fun m => if String.eqb m n then a else f m.

(** lambda [reset] of clear_statistics, source/quantities.template.h:343-353. *)
Definition reset_statistics (m : manifold) : statistics :=
  let n := length (m_masses m) in
  {| val_old := repeat (0, 0) n; val_new := repeat (0, 0) n; val_sum := repeat (0, 0) n;
     t_old := 0; t_new := 0; t_sum := 0 |}.

(** An entry of the map that is created by operator[].
    source/quantities.template.h:343-353. *)
Definition no_statistics : statistics :=
  {| val_old := []; val_new := []; val_sum := []; t_old := 0; t_new := 0; t_sum := 0 |}.

(** clear_statistics, source/quantities.template.h:340-364. *)
Definition clear_statistics (ms : list manifold) (q : qstate) : qstate :=
  {| q_stats := fold_left (fun f m => fupd f (m_name m) (reset_statistics m)) ms (fun _ => no_statistics);
     q_series := fun _ => [];
     q_written := q_written q; q_cycle := q_cycle q |}.

(** prepare, source/quantities.template.h:90-246 (bookkeeping only). *)
Definition q_prepare (ms : list manifold) : qstate :=
  clear_statistics ms {| q_stats := fun _ => no_statistics; q_series := fun _ => []; q_written := false; q_cycle := None |}.

(** internal_accumulate, source/quantities.template.h:367-424.  [prim]: the
    component of the primitive state at the points. *)
Definition internal_accumulate (m : manifold) (prim : list R) : list value * option value :=
  let vals := map (fun p => (p, p * p)) prim in
  let mass_sum := fold_left Rplus (m_masses m) 0 in
  let sum := fold_left vplus (map (fun mv => vscale (fst mv) (snd mv)) (combine (m_masses m) vals)) (0, 0) in
  (vals, if Req_EM_T mass_sum 0 then None else Some (fst sum / mass_sum, snd sum / mass_sum)).

(** Update of val_sum, source/quantities.template.h:539-545. *)
Definition add_trapezoid (tau : R) (s o n : value) : value :=
  vplus (vplus s (vscale (5 / 10 * tau) o)) (vscale (5 / 10 * tau) n).

(** See the comment above, source/quantities.template.h:539-545. *)
Definition add_all (tau : R) (sum old new : list value) : list value :=
  map (fun x => add_trapezoid tau (fst x) (fst (snd x)) (snd (snd x))) (combine sum (combine old new)).

(** Loop body of accumulate, source/quantities.template.h:506-551. *)
Definition accumulate1 (t : R) (m : manifold) (prim : list R) (q : qstate) : qstate :=
  if negb (m_time m) && negb (m_space m) then q
  else
    let s := q_stats q (m_name m) in
    (* the two swaps *)
    let t_old1 := t_new s in
    let t_new1 := t_old s in
    let val_old1 := val_new s in
    let '(val_new1, average) := internal_accumulate m prim in
    let s' :=
      if (if Req_EM_T t_old1 0 then true else false) && (if Req_EM_T t_new1 0 then true else false) then
        {| val_old := val_old1; val_new := val_new1; val_sum := val_sum s;
           t_old := t - 1; t_new := t; t_sum := t_sum s |}
      else
        let tau := t - t_old1 in
        {| val_old := val_old1; val_new := val_new1;
           val_sum := add_all tau (val_sum s) val_old1 val_new1;
           t_old := t_old1; t_new := t; t_sum := t_sum s + tau |} in
    {| q_stats := fupd (q_stats q) (m_name m) s';
       q_series := fupd (q_series q) (m_name m) (q_series q (m_name m) ++ [(t, average)]);
       q_written := q_written q; q_cycle := q_cycle q |}.

(** accumulate, source/quantities.template.h:494-563.  [sample m]: component of
    the primitive state at the points of [m]. *)
Definition q_accumulate (ms : list manifold) (sample : manifold -> list R) (t : R) (q : qstate) : qstate :=
  fold_left (fun q m => accumulate1 t m (sample m) q) ms q.

(** Loop body of write_out, source/quantities.template.h:585-668.  [None]: the
    AssertThrow of line 619 fails. *)
Definition write_out1 (t : R) (cycle : nat) (m : manifold) (prim : list R) (q : qstate) : option (list qfile * qstate) :=
  let n := m_name m in
  let averaging := m_time m || m_space m in
  match
    (if m_inst m then
       if averaging then
         if Req_EM_T (t_new (q_stats q n)) t then
           Some ([QInstant n cycle t (val_new (q_stats q n))], q)
         else None
       else
         let s := q_stats q n in
         let vals := fst (internal_accumulate m prim) in
         Some ([QInstant n cycle t vals],
               {| q_stats := fupd (q_stats q) n
                    {| val_old := val_old s; val_new := vals; val_sum := val_sum s;
                       t_old := t_old s; t_new := t_new s; t_sum := t_sum s |};
                  q_series := q_series q; q_written := q_written q; q_cycle := q_cycle q |})
     else Some ([], q))
  with
  | None => None
  | Some (f1, q1) =>
      let s := q_stats q1 n in
      let f2 :=
        if m_time m then
          if Req_EM_T (t_sum s) 0 then []
          else [QAverage n cycle (t_new s - t_sum s) (t_new s) (map (vscale (1 / t_sum s)) (val_sum s))]
        else [] in
      if m_space m then
        let append := match q_cycle q1 with Some _ => true | None => false end in
        let file := match q_cycle q1 with Some c => c | None => cycle end in
        Some (f1 ++ f2 ++ [QSeries n file append (q_series q1 n)],
              {| q_stats := q_stats q1; q_series := fupd (q_series q1) n [];
                 q_written := q_written q1; q_cycle := Some file |})
      else Some (f1 ++ f2, q1)
  end.

(** See the comment above, source/quantities.template.h:585-668. *)
Fixpoint write_all (t : R) (cycle : nat) (sample : manifold -> list R) (ms : list manifold) (q : qstate)
  : option (list qfile * qstate) :=
  match ms with
  | [] => Some ([], q)
  | m :: ms' =>
      match write_out1 t cycle m (sample m) q with
      | None => None
      | Some (f, q1) =>
          match write_all t cycle sample ms' q1 with
          | None => None
          | Some (f', q2) => Some (f ++ f', q2)
          end
      end
  end.

(** write_out, source/quantities.template.h:565-682.  [clear]: parameter "clear
    statistics on writeout". *)
Definition q_write_out (clear : bool) (ms : list manifold) (sample : manifold -> list R) (t : R) (cycle : nat)
    (q : qstate) : option (list qfile * qstate) :=
  let fm := if q_written q then [] else [QMesh cycle] in
  let q0 := {| q_stats := q_stats q; q_series := q_series q; q_written := true; q_cycle := q_cycle q |} in
  match write_all t cycle sample ms q0 with
  | None => None
  | Some (f, q1) => Some (fm ++ f, if clear then clear_statistics ms q1 else q1)
  end.
