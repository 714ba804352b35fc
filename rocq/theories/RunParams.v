(** * Model: how the ranks read their parameters, and the copy of them that a run writes

    source/equation_dispatch.h:77-103 and 271-286, source/time_loop.template.h:229-232
    and 892-914.  A parameter file is the list of its assignments; a parameter is named
    by its section and its key.  The ranks are interleaved; a step is an access to the
    file system.  dealii::ParameterHandler is simplified to a list of declared
    parameters with their values.  Left out: patterns for the values, the log file, the
    output on the screen, and the collective operations in the constructor of the
    triangulation (source/discretization.template.h:31-47).  These would only forbid
    some of the interleavings between the two times a file is read. *)
From Coq Require Import String List Bool Arith.
Import ListNotations.
Local Open Scope string_scope.

(** Assignments "set key = value", or declared parameters with their values, as used in
    source/equation_dispatch.h:79-82. *)
Definition entries := list (string * string).
(** The directory in which the program runs, source/time_loop.template.h:912. *)
Definition files := string -> option entries.
(** A file is replaced, source/time_loop.template.h:912. *)
Definition put (f : files) (name : string) (c : entries) : files := fun n => if String.eqb n name then Some c else f n.

(** The parameters of source/equation_dispatch.h:37-41 and the "basename" of
    source/time_loop.template.h:80-81. *)
Definition key_dimension : string := "B - Equation/dimension".
(** See the comment above, source/equation_dispatch.h:37-41 and source/time_loop.template.h:80-81. *)
Definition key_equation : string := "B - Equation/equation".
(** See the comment above, source/equation_dispatch.h:37-41 and source/time_loop.template.h:80-81. *)
Definition key_basename : string := "A - TimeLoop/basename".

(** The value of a parameter that had the value d before the assignments, as set by
    parse_input() in source/equation_dispatch.h:79-82: later ones overwrite. *)
Fixpoint value (file : entries) (k d : string) : string :=
  match file with
  | [] => d
  | (k', v) :: rest => value rest k (if String.eqb k k' then v else d)
  end.

(** A key is among the declared parameters, source/equation_dispatch.h:79-82. *)
Definition declares (prm : entries) (k : string) : bool := existsb (fun kv => String.eqb k (fst kv)) prm.

(** ParameterAcceptor::prm.parse_input(), source/equation_dispatch.h:79-82 with "skip
    undefined", and as part of ParameterAcceptor::initialize() in lines 273, 278, 283
    without.  Parameters that are not assigned keep their values.  None is an
    exception. *)
Definition parse_input (skip_undefined : bool) (prm file : entries) : option entries :=
  if (skip_undefined || forallb (fun kv => declares prm (fst kv)) file)%bool
  then Some (map (fun kv => (fst kv, value file (fst kv) (snd kv))) prm) else None.

(** The parameters before the file is read, source/equation_dispatch.h:36-44. *)
Definition dispatch_prm : entries := [(key_dimension, "0"); (key_equation, "")].

(** The name of the copy, source/time_loop.template.h:912. *)
Definition target (cfg : entries) : string := value cfg key_basename "" ++ "-parameters.prm".

(** What TimeLoop<Description, dim, Number> declares, source/time_loop.template.h:27-215,
    for an equation and a dimension; None if there is no such driver
    (source/equation_dispatch.h:84-102). *)
Definition drivers := string -> string -> option entries.

(** A rank: before line 79 of source/equation_dispatch.h; before line 273, 278 or 283;
    before source/time_loop.template.h:912; between the opening of the copy in that
    line and the end of print_parameters(); in the time loop; ended by an exception. *)
Inductive phase :=
| Start
| Constructed (prm : entries)
| Initialized (cfg : entries)
| Opened (cfg : entries)
| Started (cfg : entries)
| Failed.

(** The part of dispatch() up to the constructor of the time loop,
    source/equation_dispatch.h:79-96 and 271-282. *)
Definition construct (D : drivers) (c : entries) : phase :=
  match parse_input true dispatch_prm c with
  | None => Failed
  | Some prm =>
      match D (value prm key_equation "") (value prm key_dimension "") with
      | None => Failed
      | Some d => Constructed (prm ++ d)%list
      end
  end.

(** ParameterAcceptor::initialize(), source/equation_dispatch.h:273, 278, 283. *)
Definition initialize (prm c : entries) : phase :=
  match parse_input false prm c with None => Failed | Some cfg => Initialized cfg end.

(** One step of a rank: source/equation_dispatch.h:79-96 and 271-286, then
    source/time_loop.template.h:229-232 and 896-914.  Opening the copy empties it
    (line 912); its new contents (line 913) are there when the stream is closed. *)
Definition rank_step (D : drivers) (name : string) (root : bool) (f : files) (p : phase) : option (phase * files) :=
  match p with
  | Start => Some (match f name with None => Failed | Some c => construct D c end, f)
  | Constructed prm => Some (match f name with None => Failed | Some c => initialize prm c end, f)
  | Initialized cfg => if root then Some (Opened cfg, put f (target cfg) []) else Some (Started cfg, f)
  | Opened cfg => Some (Started cfg, put f (target cfg) cfg)
  | Started _ | Failed => None
  end.

(** The ranks of a run, source/main.cc:120-123. *)
Record state := { st_files : files; st_ranks : list phase }.

(** Rank i is now at p, source/main.cc:120-123. *)
Fixpoint set_rank (l : list phase) (i : nat) (p : phase) : list phase :=
  match l, i with
  | [], _ => []
  | _ :: r, O => p :: r
  | q :: r, S j => q :: set_rank r j p
  end.

(** Some rank makes a step, source/main.cc:120-123. *)
Inductive step (D : drivers) (name : string) : state -> state -> Prop :=
| step_rank f l i p p' f' :
    nth_error l i = Some p -> rank_step D name (Nat.eqb i 0) f p = Some (p', f') ->
    step D name {| st_files := f; st_ranks := l |} {| st_files := f'; st_ranks := set_rank l i p' |}.

(** k steps of n ranks started with the parameter file name, source/main.cc:120-123. *)
Inductive execution (D : drivers) (name : string) (f : files) (n : nat) : nat -> state -> Prop :=
| exec_start : execution D name f n 0 {| st_files := f; st_ranks := repeat Start n |}
| exec_step k s s' : execution D name f n k s -> step D name s s' -> execution D name f n (S k) s'.
