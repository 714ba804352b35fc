(** * Property theorems: the parameters of a run (C159) *)
From Coq Require Import String List Bool Arith.
From Verif Require Import RunParams RunParamsSpec RunParamsProofs RunParamsFinal.
Import ListNotations.
Local Open Scope string_scope.

(** ** The parameters of a run (C159) *)

(** Whatever the interleaving, all ranks start with the one configuration that the file describes, or all fail, unless several ranks read the file that this very run writes. *)
Theorem C159_agree : forall D name f n c k s,
  f name = Some c -> (n = 1 \/ forall cfg, configuration D c cfg -> ~ copy_name cfg name) -> execution D name f n k s ->
  (forall cfg, In (Started cfg) (st_ranks s) -> configuration D c cfg) /\
  (In Failed (st_ranks s) -> forall cfg, ~ configuration D c cfg) /\
  (forall cfg cfg', configuration D c cfg -> configuration D c cfg' -> cfg = cfg').
Proof. exact C159_agree_proof. Qed.
Print Assumptions C159_agree.

(** Two ranks. *)
Example C159_agree_ex :
  exists s,
  execution demo_drivers "cylinder.prm" (demo_files "cylinder.prm" demo_file) 2 7 s /\
  st_ranks s = [Started demo_config; Started demo_config] /\ st_files s "cylinder-parameters.prm" = Some demo_config /\
  demo_files "cylinder.prm" demo_file "cylinder.prm" = Some demo_file /\ configuration demo_drivers demo_file demo_config /\
  distinct_names demo_drivers /\ forall cfg, configuration demo_drivers demo_file cfg -> ~ copy_name cfg "cylinder.prm".
Proof. exact agree_case. Qed.

(** The file with the parameters that rank 0 writes describes the same configuration as the original, and no other file is changed. *)
Theorem C159_copy : forall D name f n c k s cfg,
  distinct_names D -> f name = Some c -> (n = 1 \/ forall cfg, configuration D c cfg -> ~ copy_name cfg name) ->
  execution D name f n k s -> nth_error (st_ranks s) 0 = Some (Started cfg) ->
  exists m copy, copy_name cfg m /\ st_files s m = Some copy /\ configuration D copy cfg /\ forall m', m' <> m -> st_files s m' = f m'.
Proof. exact C159_copy_proof. Qed.
Print Assumptions C159_copy.

(** One rank reads and rewrites its own copy. *)
Example C159_copy_ex :
  exists s,
  execution demo_drivers "cylinder-parameters.prm" (demo_files "cylinder-parameters.prm" demo_file) 1 4 s /\
  st_ranks s = [Started demo_config] /\ st_files s "cylinder-parameters.prm" = Some demo_config.
Proof. exact serial_case. Qed.

(** If the file describes no configuration (unknown equation, misspelt parameter) no rank starts and no file is changed. *)
Theorem C159_failure : forall D name f n c k s,
  f name = Some c -> (forall cfg, ~ configuration D c cfg) -> execution D name f n k s ->
  (forall m, st_files s m = f m) /\ forall cfg, ~ In (Started cfg) (st_ranks s).
Proof. exact C159_failure_proof. Qed.
Print Assumptions C159_failure.

(** A misspelt parameter. *)
Example C159_failure_ex :
  exists s,
  execution demo_drivers "a.prm" (demo_files "a.prm" (("A - TimeLoop/final tme", "4") :: demo_file)) 2 4 s /\ st_ranks s = [Failed; Failed] /\
  forall cfg, ~ configuration demo_drivers (("A - TimeLoop/final tme", "4") :: demo_file) cfg.
Proof. exact failure_case. Qed.

(** Every rank reaches the time loop or fails after boundedly many steps. *)
Theorem C159_terminates : forall D name f n k s,
  execution D name f n k s ->
  k <= 4 * n /\
  ((forall s', ~ step D name s s') -> forall p, In p (st_ranks s) -> p = Failed \/ exists cfg, p = Started cfg).
Proof. exact C159_terminates_proof. Qed.
Print Assumptions C159_terminates.

(** Several ranks started with the copy of an earlier run: one may start with the defaults of all parameters, as rank 0 has just emptied the file. *)
Theorem C159_race_refuted :
  exists D name f c k s cfg0 cfg1,
    distinct_names D /\ f name = Some c /\ configuration D c cfg0 /\ c = cfg0 /\ execution D name f 2 k s /\
    st_ranks s = [Started cfg0; Started cfg1] /\
    In ("A - TimeLoop/final time", "4") cfg0 /\ In ("A - TimeLoop/final time", "5") cfg1 /\ ~ In ("A - TimeLoop/final time", "4") cfg1.
Proof. exact C159_race_refuted_proof. Qed.
Print Assumptions C159_race_refuted.
