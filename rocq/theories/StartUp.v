(** * Model: the main function

    source/main.cc:59-128 with source/equation_dispatch.h:50-103 and 167-232.  The
    ranks of a parallel run are interleaved step by step; a step is an access to the
    file system or a collective operation.  Left out: the output on the screen,
    the setup of MPI and threads, errors of the file system.  Of a parameter file only
    the equation, the dimension and an opaque rest are kept. *)
From Coq Require Import String Ascii List Bool ZArith.
From Verif Require Import Dispatch.
Import ListNotations.
Local Open Scope string_scope.

(** A parameter file.
    Created in source/equation_dispatch.h:167-232, read in lines 77-103. *)
Record content := { c_equation : string; c_dimension : Z; c_rest : string }.
(** The working directory, source/main.cc:86-113. *)
Definition files := string -> option content.
(** Writing a file, source/equation_dispatch.h:167-232. *)
Definition put (f : files) (name : string) (c : content) : files :=
  fun n => if String.eqb n name then Some c else f n.

(** std::filesystem::path(argv[0]).filename(), source/main.cc:86: what follows the
    last slash. *)
Fixpoint has_slash (s : string) : bool :=
  match s with EmptyString => false | String c r => (Ascii.eqb c "/" || has_slash r)%bool end.
(** See the comment above, source/main.cc:86. *)
Fixpoint filename (s : string) : string :=
  match s with
  | EmptyString => EmptyString
  | String c r => if has_slash r then filename r else if Ascii.eqb c "/" then r else s
  end.

(** std::replace(base_name.begin(), base_name.end(), ' ', '_'),
    source/equation_dispatch.h:204. *)
Fixpoint underscore (s : string) : string :=
  match s with EmptyString => EmptyString | String c r => String (if Ascii.eqb c " " then "_"%char else c) (underscore r) end.

(** std::to_string(dim) for the dimensions 1, 2, 3 used in
    source/equation_dispatch.h:245-247. *)
Definition digit (dim : Z) : string := if (dim =? 1)%Z then "1" else if (dim =? 2)%Z then "2" else "3".

(** create_prm_files(), source/equation_dispatch.h:167-229: the files in the order in
    which they are written (lines 208-219), with the entries set in lines 192-201. *)
Definition prm_files (name : string) (dim : Z) (detailed : bool) : list (string * content) :=
  let base_name := underscore name ++ "-" ++ digit dim ++ "d" in
  let long := ("default_parameters-" ++ base_name ++ "-description.prm",
               {| c_equation := name; c_dimension := dim; c_rest := "defaults and descriptions" |}) in
  let short := ("default_parameters-" ++ base_name ++ ".prm",
                {| c_equation := name; c_dimension := dim; c_rest := "defaults" |}) in
  if detailed then [long; short] else [short].

(** The slot of an equation, source/equation_dispatch.h:244-248. *)
Definition equation_files (name : string) : list (string * content) :=
  (prm_files name 1 false ++ prm_files name 2 true ++ prm_files name 3 false)%list.

(** EquationDispatch::create_parameter_files(), source/equation_dispatch.h:50-58, for
    at least one registered equation. *)
Definition templates (registered : list string) : list (string * content) := flat_map equation_files registered.

(** The command line and the executable: argv[0], the other arguments, the
    registered equations and the outcome of the time loops.  source/main.cc:59-128. *)
Record command := {
  argv0 : string; args : list string; registered : list string; run_ok : string -> Z -> bool }.

(** source/main.cc:86-90 *)
Definition default_file (W : command) : string := filename (argv0 W) ++ ".prm".
(** See the comment above, source/main.cc:86-90. *)
Definition parameter_file (W : command) : string :=
  match args W with [] => default_file W | a :: _ => a end.

(** How a rank came to its end: without any collective operation (lines 75-84 and
    92-101), after the barrier of line 113, or after the time loop of line 122. *)
Inductive exit_kind := Early | AtBarrier | Ran.

(** Where a rank is: before line 75; before line 104; in create_parameter_files() of
    line 110 with the files yet to be written; at the barrier of line 113; in
    dispatch() of line 122; gone, with its status and the time loops it has run. *)
Inductive phase :=
| Begin
| Check
| Writing (todo : list (string * content))
| Waiting
| Running
| Exited (how : exit_kind) (status : Z) (loops : list (string * Z)).

(** The steps of one rank up to its next collective operation, source/main.cc:75-113.
    The comparison of line 75 counts argv[0]. *)
Definition local_step (W : command) (root : bool) (f : files) (p : phase) : option (phase * files) :=
  match p with
  | Begin =>
      if Nat.ltb 2 (S (length (args W))) then Some (Exited Early 1 [], f)
      else match args W with
           | [] => Some (Check, f)
           | a :: _ => match f a with Some _ => Some (Check, f) | None => Some (Exited Early 1 [], f) end
           end
  | Check =>
      match f (parameter_file W) with
      | Some _ => Some (Running, f)
      | None => if root then Some (Writing (templates (registered W)), f) else Some (Waiting, f)
      end
  | Writing [] => Some (Waiting, f)
  | Writing ((n, c) :: rest) => Some (Writing rest, put f n c)
  | Waiting | Running | Exited _ _ _ => None
  end.

(** dispatch() and the status of the process, source/main.cc:120-127.  An exception
    is not caught: the process ends with SIGABRT, which a shell reports as 134. *)
Definition run_program (W : command) (f : files) : phase :=
  match f (parameter_file W) with
  | None => Exited Ran 134 []
  | Some c =>
      let o := dispatch (run_ok W) (registered W) (c_dimension c) (c_equation c) false in
      Exited Ran (if returned o then 0 else 134)%Z (started o)
  end.

(** A collective operation needs all ranks: MPI_Barrier of line 113, and the time loop,
    which uses the same communicator. *)
Definition at_barrier (p : phase) : Prop :=
  match p with Waiting | Exited AtBarrier _ _ => True | _ => False end.
(** The rank is in the time loop, source/main.cc:122. *)
Definition in_loop (p : phase) : Prop :=
  match p with Running | Exited Ran _ _ => True | _ => False end.

(** The files and the positions of all ranks in source/main.cc:86-127. *)
Record state := { st_files : files; st_ranks : list phase }.

(** One rank goes on, source/main.cc:86-127. *)
Fixpoint set_rank (l : list phase) (i : nat) (p : phase) : list phase :=
  match l, i with
  | [], _ => []
  | _ :: r, O => p :: r
  | q :: r, S j => q :: set_rank r j p
  end.

(** One step of one rank, source/main.cc:75-127. *)
Inductive step (W : command) : state -> state -> Prop :=
| step_local f l i p p' f' :
    nth_error l i = Some p -> local_step W (Nat.eqb i 0) f p = Some (p', f') ->
    step W {| st_files := f; st_ranks := l |} {| st_files := f'; st_ranks := set_rank l i p' |}
| step_barrier f l i :
    nth_error l i = Some Waiting -> Forall at_barrier l ->
    step W {| st_files := f; st_ranks := l |} {| st_files := f; st_ranks := set_rank l i (Exited AtBarrier 1 []) |}
| step_run f l i :
    nth_error l i = Some Running -> Forall in_loop l ->
    step W {| st_files := f; st_ranks := l |} {| st_files := f; st_ranks := set_rank l i (run_program W f) |}.

(** k steps of n ranks that all enter main() with the files f, source/main.cc:59. *)
Inductive execution (W : command) (f : files) (n : nat) : nat -> state -> Prop :=
| exec_start : execution W f n 0 {| st_files := f; st_ranks := repeat Begin n |}
| exec_step k s s' : execution W f n k s -> step W s s' -> execution W f n (S k) s'.
