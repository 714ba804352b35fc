(** * Crashes during checkpointing: C49 *)
From Coq Require Import List Bool Arith Lia.
From Verif Require Import Checkpoint CheckpointProofs.
Import ListNotations.

(** C49.  After any sequence of checkpoints, each of which may have died at any file
    operation, a resume that succeeds reads four files of the same checkpoint. *)
Theorem C49_never_mixed : forall n fs a b c d,
  history n fs -> resume_from fs = Some (a, b, c, d) -> a = d /\ b = d /\ c = d /\ d < n.
Proof. exact C49_never_mixed_proof. Qed.
Print Assumptions C49_never_mixed.

(** C49.  A checkpoint that has been written completely is found. *)
Theorem C49_completed : forall n fs fs',
  history n fs -> wsteps n (fs, start_write) (fs', Done) -> resume_from fs' = Some (n, n, n, n).
Proof. exact C49_completed_proof. Qed.
Print Assumptions C49_completed.

(** C49.  No resume reads a checkpoint older than the last completed one. *)
Theorem C49_latest : forall n fs fs1 n' fs' a b c d,
  history n fs -> wsteps n (fs, start_write) (fs1, Done) -> continues (S n) fs1 n' fs' ->
  resume_from fs' = Some (a, b, c, d) -> n <= d.
Proof. exact C49_latest_proof. Qed.
Print Assumptions C49_latest.

(** C49.  If a checkpoint is complete and the next call dies anywhere, every file of
    the old one is still there, under its name or its backup name. *)
Theorem C49_old_survives : forall old id fs fs',
  (forall s, plain fs s = Some (Complete old)) -> attempt id fs fs' ->
  forall s, plain fs' s = Some (Complete old) \/ backup fs' s = Some (Complete old).
Proof. exact C49_old_survives_proof. Qed.
Print Assumptions C49_old_survives.

Example C49_applies : history 0 no_files /\
  exists fs, wsteps 0 (no_files, start_write) (fs, Done) /\ forall s, plain fs s = Some (Complete 0).
Proof. split; [constructor|exact first_checkpoint]. Qed.

(** C49 fails: after a crash within write_checkpoint a resume may find neither the
    old nor the new checkpoint. *)
Theorem C49_crash_refuted :
  exists fs fs', history 1 fs /\ resume_from fs = Some (0, 0, 0, 0) /\ attempt 1 fs fs' /\ resume_from fs' = None.
Proof. exact C49_crash_refuted_proof. Qed.
Print Assumptions C49_crash_refuted.

(** After two crashes the backup files may not form a complete checkpoint either. *)
Theorem C49_two_crashes_refuted :
  exists fs fs1 fs2, history 1 fs /\ resume_from fs = Some (0, 0, 0, 0) /\ attempt 1 fs fs1 /\ attempt 2 fs1 fs2 /\
  forall i, exists s, plain fs2 s <> Some (Complete i) /\ backup fs2 s <> Some (Complete i).
Proof. exact C49_two_crashes_refuted_proof. Qed.
Print Assumptions C49_two_crashes_refuted.
