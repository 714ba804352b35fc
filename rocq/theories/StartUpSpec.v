(** * Notions for the main function *)
From Coq Require Import String List ZArith.
From Verif Require Import Dispatch StartUp.
Import ListNotations.

Definition finished (p : phase) : Prop := match p with Exited _ _ _ => True | _ => False end.

(** A rank ended with the status and has run the time loops. *)
Definition ended (status : Z) (loops : list (string * Z)) (p : phase) : Prop :=
  exists how, p = Exited how status loops.

(** No argument, and the parameter file named after the executable is missing. *)
Definition first_start (W : command) (f : files) : Prop := args W = [] /\ f (default_file W) = None.
