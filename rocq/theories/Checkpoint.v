(** * Checkpoint files under crashes

    TimeLoop::write_checkpoint and read_checkpoint, source/time_loop.template.h:438-611,
    on the level of file operations.  Assumptions on the environment: a rename is
    atomic; triangulation.save() creates, fills and completes the files .mesh,
    .mesh_fixed.data and .mesh.info in some order and does so after the renames of
    rank 0; a file that is not complete is recognised on reading.  Contents are
    represented by the number of the call of write_checkpoint that produced them. *)
From Coq Require Import List Bool Arith.
Import ListNotations.

(** The suffixes of source/time_loop.template.h:584-585. *)
Inductive suffix := Mesh | Data | Info | Meta.

(** The content of a file: the call that has written it, and whether completely; written in source/time_loop.template.h:593, 602-607. *)
Inductive content :=
| Partial                  (* created or truncated, not completely written *)
| Complete (id : nat).

(** Files base_name-checkpoint<suffix> and base_name-checkpoint<suffix>~.
    The names of source/time_loop.template.h:581-587. *)
Record files := { plain : suffix -> option content; backup : suffix -> option content }.

(** An empty directory: no file of source/time_loop.template.h:581-587 exists. *)
Definition no_files : files := {| plain := fun _ => None; backup := fun _ => None |}.

(** Equality of the suffixes of source/time_loop.template.h:584-585. *)
Definition suffix_eqb (a b : suffix) : bool :=
  match a, b with Mesh, Mesh | Data, Data | Info, Info | Meta, Meta => true | _, _ => false end.

(** Change of one file, as done in source/time_loop.template.h:587, 593, 602-607. *)
Definition set (f : suffix -> option content) (s : suffix) (c : option content) : suffix -> option content :=
  fun x => if suffix_eqb x s then c else f x.

(** if (exists(name + suffix)) rename(name + suffix, name + suffix + "~"):
    source/time_loop.template.h:586-587. *)
Definition rename (s : suffix) (fs : files) : files :=
  match plain fs s with
  | None => fs
  | Some c => {| plain := set (plain fs) s None; backup := set (backup fs) s (Some c) |}
  end.

(** Writing a file of the current call, source/time_loop.template.h:593, 602-607. *)
Definition put (s : suffix) (c : content) (fs : files) : files :=
  {| plain := set (plain fs) s (Some c); backup := backup fs |}.

(** Position within write_checkpoint.  source/time_loop.template.h:581-611. *)
Inductive position :=
| Renaming (todo : list suffix)   (* source/time_loop.template.h:583-588 *)
| Saving (todo : list suffix)     (* triangulation.save, lines 590-596: files not yet complete *)
| Writing                         (* metadata opened, lines 602-607 *)
| Done.

(** The beginning of the renaming, source/time_loop.template.h:583-585. *)
Definition start_write : position := Renaming [Mesh; Data; Info; Meta].

(** The suffixes left for the loop and for save(), source/time_loop.template.h:584-587, 593. *)
Definition remove (s : suffix) (l : list suffix) : list suffix := filter (fun x => negb (suffix_eqb x s)) l.

(** One file operation of the call number [id].  source/time_loop.template.h:583-607. *)
Inductive wstep (id : nat) : files * position -> files * position -> Prop :=
| W_rename fs s l : wstep id (fs, Renaming (s :: l)) (rename s fs, Renaming l)
| W_renamed fs : wstep id (fs, Renaming []) (fs, Saving [Mesh; Data; Info])
| W_create fs s l : In s l -> wstep id (fs, Saving l) (put s Partial fs, Saving l)
| W_complete fs s l : In s l -> wstep id (fs, Saving l) (put s (Complete id) fs, Saving (remove s l))
| W_open fs : wstep id (fs, Saving []) (put Meta Partial fs, Writing)
| W_close fs : wstep id (fs, Writing) (put Meta (Complete id) fs, Done).

(** Several file operations, source/time_loop.template.h:583-607. *)
Inductive wsteps (id : nat) : files * position -> files * position -> Prop :=
| W_refl x : wsteps id x x
| W_step x y z : wsteps id x y -> wstep id y z -> wsteps id x z.

(** A call of write_checkpoint that ends or dies at any position.
    source/time_loop.template.h:581-611. *)
Definition attempt (id : nat) (fs fs' : files) : Prop := exists p, wsteps id (fs, start_write) (fs', p).

(** The files after any sequence of calls number 0, 1, ..., n-1, each of which may
    die at any position (the program is restarted afterwards).
    The calls of source/time_loop.template.h:581-611. *)
Inductive history : nat -> files -> Prop :=
| H_none : history 0 no_files
| H_next n fs fs' : history n fs -> attempt n fs fs' -> history (S n) fs'.

(** Further calls number n, ..., n'-1 starting from given files.
    The calls of source/time_loop.template.h:581-611. *)
Inductive continues (n : nat) (fs : files) : nat -> files -> Prop :=
| C_none : continues n fs n fs
| C_next n' fs1 fs2 : continues n fs n' fs1 -> attempt n' fs1 fs2 -> continues n fs (S n') fs2.

(** read_checkpoint, source/time_loop.template.h:438-533: the four files are read;
    [None]: an exception. *)
Definition read_file (fs : files) (s : suffix) : option nat :=
  match plain fs s with Some (Complete id) => Some id | _ => None end.

(** See the comment above, source/time_loop.template.h:438-533. *)
Definition resume_from (fs : files) : option (nat * nat * nat * nat) :=
  match read_file fs Mesh, read_file fs Data, read_file fs Info, read_file fs Meta with
  | Some a, Some b, Some c, Some d => Some (a, b, c, d)
  | _, _, _, _ => None
  end.
