(** * Property theorems: the main function (C156) *)
From Coq Require Import String List Bool ZArith Arith Permutation.
From Verif Require Import Dispatch StartUp StartUpSpec StartUpProofs StartUpFinal.
Import ListNotations.
Local Open Scope string_scope.

(** ** The main function (C156) *)

(** Whatever the interleaving, all ranks end with the same status: zero iff there is at most one argument, the parameter file exists and selects one registered equation whose time loop returns; that time loop and no other was run. *)
Theorem C156_status : forall W f n k s,
  1 <= n ->
  prefix "default_parameters-" (filename (argv0 W)) = false ->
  execution W f n k s -> Forall finished (st_ranks s) ->
  let selects c := (1 <= c_dimension c <= 3)%Z /\ count_occ string_dec (registered W) (c_equation c) = 1 /\
                   run_ok W (c_equation c) (c_dimension c) = true in
  (exists c, length (args W) <= 1 /\ f (parameter_file W) = Some c /\ selects c /\
     Forall (ended 0 [(c_equation c, c_dimension c)]) (st_ranks s)) \/
  (~ (length (args W) <= 1 /\ exists c, f (parameter_file W) = Some c /\ selects c) /\
   exists status loops, status <> 0%Z /\ Forall (ended status loops) (st_ranks s)).
Proof. exact C156_status_proof. Qed.
Print Assumptions C156_status.

(** Two ranks and a parameter file. *)
Example C156_status_ex :
  exists k s,
  execution plain_start (put (fun _ => None) "ryujin.prm" {| c_equation := "navier stokes"; c_dimension := 2; c_rest := "" |}) 2 k s /\
  Forall (ended 0 [("navier stokes", 2%Z)]) (st_ranks s).
Proof. exact status_case. Qed.

(** Nothing but templates is ever written, and those only if there is no argument and no default parameter file. *)
Theorem C156_files : forall W f n k s name,
  1 <= n ->
  prefix "default_parameters-" (filename (argv0 W)) = false -> execution W f n k s ->
  st_files s name = f name \/ (first_start W f /\ prefix "default_parameters-" name = true).
Proof. exact C156_files_proof. Qed.
Print Assumptions C156_files.

(** No rank waits for ever, *)
Theorem C156_progress : forall W f n k s,
  1 <= n ->
  prefix "default_parameters-" (filename (argv0 W)) = false ->
  execution W f n k s -> Forall finished (st_ranks s) \/ exists s', step W s s'.
Proof. exact C156_progress_proof. Qed.
Print Assumptions C156_progress.

(** and the number of steps to the end is bounded. *)
Theorem C156_terminates : forall W f n k s,
  execution W f n k s -> k <= n * (5 + length (templates (registered W))).
Proof. exact C156_terminates_proof. Qed.
Print Assumptions C156_terminates.

(** After a start without parameter file there is a template for every equation and dimension; renamed to the default name it runs just that equation. *)
Theorem C156_templates : forall W f n k s equation dim,
  1 <= n ->
  prefix "default_parameters-" (filename (argv0 W)) = false -> Permutation shipped_equations (registered W) ->
  first_start W f -> execution W f n k s -> Forall finished (st_ranks s) ->
  In equation shipped_equations -> (1 <= dim <= 3)%Z ->
  exists name c, st_files s name = Some c /\ c_equation c = equation /\ c_dimension c = dim /\ prefix "default_parameters-" name = true /\
    forall f2 n2 k2 s2, 1 <= n2 -> f2 (default_file W) = Some c -> run_ok W equation dim = true ->
      execution W f2 n2 k2 s2 -> Forall finished (st_ranks s2) -> Forall (ended 0 [(equation, dim)]) (st_ranks s2).
Proof. exact C156_templates_proof. Qed.
Print Assumptions C156_templates.

(** Three ranks in an empty directory. *)
Example C156_start_ex :
  prefix "default_parameters-" (filename (argv0 plain_start)) = false /\ default_file plain_start = "ryujin.prm" /\
  Permutation shipped_equations (registered plain_start) /\ first_start plain_start (fun _ => None) /\
  exists k s, execution plain_start (fun _ => None) 3 k s /\ Forall finished (st_ranks s) /\
    st_files s "default_parameters-scalar_conservation-1d.prm"
      = Some {| c_equation := "scalar conservation"; c_dimension := 1; c_rest := "defaults" |}.
Proof. exact start_case. Qed.

(** The default parameter file is named after the executable, without its directory; names of templates have no blanks. *)
Theorem C156_names : forall W,
  (forall dir base, (argv0 W = dir ++ "/" ++ base \/ argv0 W = base) -> (forall a b, base <> a ++ "/" ++ b) -> args W = [] ->
     parameter_file W = base ++ ".prm") /\
  (forall a r, args W = a :: r -> parameter_file W = a) /\
  forall n c, In (n, c) (templates (registered W)) -> forall a b, n <> a ++ " " ++ b.
Proof. exact C156_names_proof. Qed.
Print Assumptions C156_names.

(** ./ryujin and a template for the shallow water equations. *)
Example C156_names_ex :
  argv0 plain_start = "." ++ "/" ++ "ryujin" /\ args plain_start = [] /\ parameter_file plain_start = "ryujin.prm" /\
  In ("default_parameters-shallow_water-3d.prm", {| c_equation := "shallow water"; c_dimension := 3; c_rest := "defaults" |}) (templates (registered plain_start)).
Proof. exact names_case. Qed.

(** Templates that the user has edited but not renamed are lost with the next start. *)
Theorem C156_overwrite_refuted :
  exists W f n k s name c,
  1 <= n /\ Permutation shipped_equations (registered W) /\ prefix "default_parameters-" (filename (argv0 W)) = false /\
  execution W f n k s /\ Forall finished (st_ranks s) /\ f name = Some c /\ st_files s name <> Some c.
Proof. exact C156_overwrite_refuted_proof. Qed.
Print Assumptions C156_overwrite_refuted.

(** If the executable is named like a template the ranks may wait for each other for ever. *)
Theorem C156_name_refuted :
  exists W f n k s,
  execution W f n k s /\ ~ Forall finished (st_ranks s) /\ ~ exists s', step W s s'.
Proof. exact C156_name_refuted_proof. Qed.
Print Assumptions C156_name_refuted.
