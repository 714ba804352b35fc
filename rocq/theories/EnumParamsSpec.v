(** * Enumeration parameters: what is required *)
From Coq Require Import String Ascii List Bool.
From Verif Require Import EnumParams.
Import ListNotations.
Local Open Scope string_scope.

(** No separator in a name. *)
Fixpoint plain_name (s : string) : bool :=
  match s with "" => true | String c s' => negb (Ascii.eqb c "|") && plain_name s' end.

(** A well formed table: no two entries agree in a component, names are not empty
    and contain no separator. *)
Definition well_formed {T} (table : list (T * string)) : Prop :=
  NoDup (map fst table) /\ NoDup (map snd table) /\ forall it, In it table -> plain_name (snd it) = true /\ snd it <> "".

(** The statement for one enumeration. *)
Definition survives {T} (dec : forall a b : T, {a = b} + {a <> b}) (table : list (T * string)) : Prop :=
  (forall t, exists s, to_string (dec_eqb dec) table t = Some s /\ to_value table s = Some t) /\
  (forall s t, to_value table s = Some t -> to_string (dec_eqb dec) table t = Some s) /\
  (forall s, (exists t, to_value table s = Some t) <-> In s (map snd table)).


(** The identifiers of the enumerators as they appear in the sources, documentation
    and in user code. *)
Definition cfl_identifier (t : CFLRecoveryStrategy) : string :=
  match t with cfl_none => "none" | bang_bang_control => "bang_bang_control" end.

Definition scheme_identifier (t : TimeSteppingScheme) : string :=
  match t with
  | ssprk_22 => "ssprk_22" | ssprk_33 => "ssprk_33" | erk_11 => "erk_11" | erk_22 => "erk_22" | erk_33 => "erk_33"
  | erk_43 => "erk_43" | erk_54 => "erk_54" | strang_ssprk_33_cn => "strang_ssprk_33_cn"
  | strang_erk_33_cn => "strang_erk_33_cn" | strang_erk_43_cn => "strang_erk_43_cn"
  | imex_11 => "imex_11" | imex_22 => "imex_22" | imex_33 => "imex_33"
  end.

Definition adaptation_identifier (t : AdaptationStrategy) : string :=
  match t with global_refinement => "global_refinement" | random_adaptation => "random_adaptation" end.

Definition marking_identifier (t : MarkingStrategy) : string := match t with fixed_number => "fixed_number" end.

Definition time_point_identifier (t : TimePointSelectionStrategy) : string :=
  match t with fixed_adaptation_time_points => "fixed_adaptation_time_points" end.

Definition boundary_identifier (t : Boundary) : string :=
  match t with
  | do_nothing => "do_nothing" | periodic => "periodic" | slip => "slip" | no_slip => "no_slip"
  | dirichlet => "dirichlet" | dynamic => "dynamic" | dirichlet_momentum => "dirichlet_momentum"
  end.

Definition ansatz_identifier (t : Ansatz) : string :=
  match t with
  | cg_q1 => "cg_q1" | cg_q2 => "cg_q2" | cg_q3 => "cg_q3"
  | dg_q0 => "dg_q0" | dg_q1 => "dg_q1" | dg_q2 => "dg_q2" | dg_q3 => "dg_q3"
  end.

(** An identifier with blanks for underscores. *)
Fixpoint spelled (s : string) : string :=
  match s with
  | "" => ""
  | String c s' => String (if Ascii.eqb c "_" then " " else c)%char (spelled s')
  end.

(** Upper case letters are turned into lower case ones. *)
Definition lower_char (c : ascii) : ascii :=
  let n := nat_of_ascii c in if (Nat.leb 65 n && Nat.leb n 90)%bool then ascii_of_nat (n + 32) else c.
Fixpoint lower (s : string) : string :=
  match s with "" => "" | String c s' => String (lower_char c) (lower s') end.

(** The string of the parameter file is the identifier, up to case and blanks. *)
Definition speaking {T} (dec : forall a b : T, {a = b} + {a <> b}) (table : list (T * string)) (identifier : T -> string) : Prop :=
  forall t, exists s, to_string (dec_eqb dec) table t = Some s /\ lower s = spelled (identifier t).
