(** * Notions for the parameters of a run *)
From Coq Require Import String List.
From Verif Require Import RunParams.
Import ListNotations.
Local Open Scope string_scope.

(** The last assignment to k in the file is the value v. *)
Definition assigned (file : entries) (k v : string) : Prop :=
  exists before after, file = (before ++ (k, v) :: after)%list /\ forall w, ~ In (k, w) after.
Definition unassigned (file : entries) (k : string) : Prop := forall w, ~ In (k, w) file.

(** The value the file gives to a parameter with the default d. *)
Definition gives (file : entries) (k d v : string) : Prop := assigned file k v \/ unassigned file k /\ v = d.

(** The file selects the driver with the parameters d (and their defaults). *)
Definition selects (D : drivers) (file d : entries) : Prop :=
  exists eq dim, gives file "B - Equation/equation" "" eq /\ gives file "B - Equation/dimension" "0" dim /\ D eq dim = Some d.

(** The parameters d and those of the dispatcher: the names are distinct. *)
Definition all_parameters (d : entries) : entries := ("B - Equation/dimension", "0") :: ("B - Equation/equation", "") :: d.
Definition distinct_names (D : drivers) : Prop := forall eq dim d, D eq dim = Some d -> NoDup (map fst (all_parameters d)).

(** A configuration is as the file says: it has every parameter, in the order of
    declaration, with its value from the file or its default, and all assignments of
    the file are to such parameters. *)
Definition configuration (D : drivers) (file cfg : entries) : Prop :=
  exists d, selects D file d /\
    Forall2 (fun kd kv => fst kd = fst kv /\ gives file (fst kd) (snd kd) (snd kv)) (all_parameters d) cfg /\
    forall k v, In (k, v) file -> In k (map fst (all_parameters d)).

(** The copy of the parameters that a run with this configuration writes. *)
Definition copy_name (cfg : entries) (name : string) : Prop :=
  exists base, gives cfg "A - TimeLoop/basename" "" base /\ name = base ++ "-parameters.prm".
