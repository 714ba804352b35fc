(** * EquationOfStateLibrary

    The equations of state of source/euler_aeos/ for real numbers.  An object is constructed
    with default values and receives the values of the parameter file later
    (ParameterAcceptor::initialize), after which the parse_parameters_call_back signal runs;
    [*_construct] and [*_parse] model these two steps.  Not modelled: the text of the parameter
    file; Function is in EosFunction.v. *)
From Coq Require Import Reals List.
From Verif Require Import RVec EulerSystem AeosSystem.
Import ListNotations.
Local Open Scope R_scope.

(** ** PolytropicGas *)

(** Members, source/euler_aeos/equation_of_state_polytropic_gas.h:89-92. *)
Record polytropic := { pg_gamma : R; pg_R : R; pg_cv : R }.

(** Constructor, source/euler_aeos/equation_of_state_polytropic_gas.h:27-43. *)
Definition pg_construct : polytropic :=
  {| pg_gamma := 7 / 5; pg_R := 287052874 / 1000000; pg_cv := 287052874 / 1000000 / (7 / 5 - 1) |}.

(** The parameters gamma and R are read in (lines 31, 39-40); cv_ is no parameter and there is
    no call back. *)
Definition pg_parse (gamma gas_constant : R) (o : polytropic) : polytropic :=
  {| pg_gamma := gamma; pg_R := gas_constant; pg_cv := pg_cv o |}.

(** source/euler_aeos/equation_of_state_polytropic_gas.h:51-54 *)
Definition pg_pressure (o : polytropic) (rho e : R) : R := (pg_gamma o - 1) * rho * e.
(** source/euler_aeos/equation_of_state_polytropic_gas.h:62-65 *)
Definition pg_sie (o : polytropic) (rho p : R) : R := p / (rho * (pg_gamma o - 1)).
(** source/euler_aeos/equation_of_state_polytropic_gas.h:73-76 *)
Definition pg_temperature (o : polytropic) (rho e : R) : R := e / pg_cv o.
(** source/euler_aeos/equation_of_state_polytropic_gas.h:84-87 *)
Definition pg_speed_of_sound (o : polytropic) (rho e : R) : R := sqrt (pg_gamma o * (pg_gamma o - 1) * e).

(** The interpolation constants keep the values of source/euler_aeos/equation_of_state.h:45-57. *)
Definition pg_eos (o : polytropic) : eos :=
  {| eos_pressure := pg_pressure o; eos_specific_internal_energy := pg_sie o; eos_speed_of_sound := pg_speed_of_sound o;
     interp_b := 0; interp_pinf := 0; interp_q := 0 |}.

(** ** NobleAbelStiffenedGas *)

(** Members, source/euler_aeos/equation_of_state_noble_abel_stiffened_gas.h:117-123; the
    last three are the interpolation constants of the base class. *)
Record nobleabel := { na_gamma : R; na_R : R; na_cv : R; na_b : R; na_q : R; na_pinf : R;
  na_interp_b : R; na_interp_q : R; na_interp_pinf : R }.

(** Constructor, source/euler_aeos/equation_of_state_noble_abel_stiffened_gas.h:27-56. *)
Definition na_construct : nobleabel :=
  {| na_gamma := 7 / 5; na_R := 287052874 / 1000000; na_cv := 287052874 / 1000000 / (7 / 5 - 1);
     na_b := 0; na_q := 0; na_pinf := 0; na_interp_b := 0; na_interp_q := 0; na_interp_pinf := 0 |}.

(** Parameters read in and call back,
    source/euler_aeos/equation_of_state_noble_abel_stiffened_gas.h:31,39,45-55,58-62. *)
Definition na_parse (gamma gas_constant b q pinf : R) (o : nobleabel) : nobleabel :=
  {| na_gamma := gamma; na_R := gas_constant; na_cv := na_cv o; na_b := b; na_q := q; na_pinf := pinf;
     na_interp_b := b; na_interp_q := q; na_interp_pinf := pinf |}.

(** source/euler_aeos/equation_of_state_noble_abel_stiffened_gas.h:71-75 *)
Definition na_pressure (o : nobleabel) (rho e : R) : R :=
  (na_gamma o - 1) * rho * (e - na_q o) / (1 - na_b o * rho) - na_gamma o * na_pinf o.
(** source/euler_aeos/equation_of_state_noble_abel_stiffened_gas.h:84-89 *)
Definition na_sie (o : nobleabel) (rho p : R) : R :=
  let numerator := (p + na_gamma o * na_pinf o) * (1 - na_b o * rho) in
  let denominator := rho * (na_gamma o - 1) in
  na_q o + numerator / denominator.
(** source/euler_aeos/equation_of_state_noble_abel_stiffened_gas.h:97-100 *)
Definition na_temperature (o : nobleabel) (rho e : R) : R :=
  (e - na_q o - na_pinf o * (1 / rho - na_b o)) / na_cv o.
(** source/euler_aeos/equation_of_state_noble_abel_stiffened_gas.h:109-115 *)
Definition na_speed_of_sound (o : nobleabel) (rho e : R) : R :=
  let covolume := 1 - na_b o * rho in
  let numerator := (rho * (e - na_q o) - na_pinf o * covolume) / rho in
  let numerator := numerator * (na_gamma o * (na_gamma o - 1)) in
  sqrt numerator / covolume.

(** The object seen through the base class, source/euler_aeos/equation_of_state.h:71-228. *)
Definition na_eos (o : nobleabel) : eos :=
  {| eos_pressure := na_pressure o; eos_specific_internal_energy := na_sie o; eos_speed_of_sound := na_speed_of_sound o;
     interp_b := na_interp_b o; interp_pinf := na_interp_pinf o; interp_q := na_interp_q o |}.

(** ** VanDerWaals *)

(** Members, source/euler_aeos/equation_of_state_van_der_waals.h:115-120; the last two are
    interpolation constants of the base class (interpolation_q_ stays 0). *)
Record vanderwaals := { vw_gamma : R; vw_b : R; vw_a : R; vw_R : R; vw_cv : R; vw_interp_b : R; vw_interp_pinf : R }.

(** Constructor, source/euler_aeos/equation_of_state_van_der_waals.h:27-49. *)
Definition vw_construct : vanderwaals :=
  {| vw_gamma := 7 / 5; vw_b := 0; vw_a := 0; vw_R := 4 / 10; vw_cv := 4 / 10 / (7 / 5 - 1); vw_interp_b := 0; vw_interp_pinf := 0 |}.

(** Parameters read in and call back,
    source/euler_aeos/equation_of_state_van_der_waals.h:31,34,37-38,46-47,52-57. *)
Definition vw_parse (gamma a b gas_constant : R) (o : vanderwaals) : vanderwaals :=
  {| vw_gamma := gamma; vw_b := b; vw_a := a; vw_R := gas_constant; vw_cv := vw_cv o; vw_interp_b := b;
     vw_interp_pinf := if Rgt_dec b 0 then a / (b * b) else vw_interp_pinf o |}.

(** source/euler_aeos/equation_of_state_van_der_waals.h:66-72 *)
Definition vw_pressure (o : vanderwaals) (rho e : R) : R :=
  let intermolecular := vw_a o * rho * rho in
  let numerator := rho * e + intermolecular in
  let covolume := 1 - vw_b o * rho in
  (vw_gamma o - 1) * numerator / covolume - intermolecular.
(** source/euler_aeos/equation_of_state_van_der_waals.h:81-88 *)
Definition vw_sie (o : vanderwaals) (rho p : R) : R :=
  let intermolecular := vw_a o * rho * rho in
  let covolume := 1 - vw_b o * rho in
  let numerator := (p + intermolecular) * covolume in
  let denominator := rho * (vw_gamma o - 1) in
  numerator / denominator - vw_a o * rho.
(** source/euler_aeos/equation_of_state_van_der_waals.h:96-99 *)
Definition vw_temperature (o : vanderwaals) (rho e : R) : R := (e + vw_a o * rho) / vw_cv o.
(** source/euler_aeos/equation_of_state_van_der_waals.h:108-113 *)
Definition vw_speed_of_sound (o : vanderwaals) (rho e : R) : R :=
  let covolume := 1 - vw_b o * rho in
  let numerator := vw_gamma o * (vw_gamma o - 1) * (e + vw_a o * rho) in
  sqrt (numerator / (covolume * covolume) - 2 * vw_a o * rho).

(** The object seen through the base class, source/euler_aeos/equation_of_state.h:71-228. *)
Definition vw_eos (o : vanderwaals) : eos :=
  {| eos_pressure := vw_pressure o; eos_specific_internal_energy := vw_sie o; eos_speed_of_sound := vw_speed_of_sound o;
     interp_b := vw_interp_b o; interp_pinf := vw_interp_pinf o; interp_q := 0 |}.

(** ** JonesWilkinsLee *)

(** Members, source/euler_aeos/equation_of_state_jones_wilkins_lee.h:140-148; all of them are
    parameters (lines 33-56), so that any record can be the result of reading a file. *)
Record jwl := { jw_A : R; jw_B : R; jw_R1 : R; jw_R2 : R; jw_omega : R; jw_rho_0 : R; jw_q_0 : R; jw_cv : R }.

(** source/euler_aeos/equation_of_state_jones_wilkins_lee.h:67-78 *)
Definition jw_pressure (o : jwl) (rho e : R) : R :=
  let ratio := rho / jw_rho_0 o in
  let first_term := jw_A o * (1 - jw_omega o / jw_R1 o * ratio) * exp (- jw_R1 o * 1 / ratio) in
  let second_term := jw_B o * (1 - jw_omega o / jw_R2 o * ratio) * exp (- jw_R2 o * 1 / ratio) in
  first_term + second_term + jw_omega o * rho * (e + jw_q_0 o).
(** source/euler_aeos/equation_of_state_jones_wilkins_lee.h:88-98 *)
Definition jw_sie (o : jwl) (rho p : R) : R :=
  let ratio := rho / jw_rho_0 o in
  let first_term := jw_A o * (1 - jw_omega o / jw_R1 o * ratio) * exp (- jw_R1 o * 1 / ratio) in
  let second_term := jw_B o * (1 - jw_omega o / jw_R2 o * ratio) * exp (- jw_R2 o * 1 / ratio) in
  (p - first_term - second_term) / (rho * jw_omega o).
(** source/euler_aeos/equation_of_state_jones_wilkins_lee.h:107-116 *)
Definition jw_temperature (o : jwl) (rho e : R) : R :=
  let ratio := rho / jw_rho_0 o in
  let first_term := jw_A o / jw_R1 o * exp (- jw_R1 o * 1 / ratio) in
  let second_term := jw_B o / jw_R2 o * exp (- jw_R2 o * 1 / ratio) in
  (e + jw_q_0 o - 1 / jw_rho_0 o * (first_term + second_term)) / jw_cv o.
(** source/euler_aeos/equation_of_state_jones_wilkins_lee.h:121-138 *)
Definition jw_speed_of_sound (o : jwl) (rho e : R) : R :=
  let omega := jw_omega o in
  let t1 := omega * rho / (jw_R1 o * jw_rho_0 o) in
  let factor1 := omega * (1 - t1) * (1 + 1 / t1) - t1 in
  let first_term := jw_A o / rho * factor1 * exp (- (1) / t1 / omega) in
  let t2 := omega * rho / (jw_R2 o * jw_rho_0 o) in
  let factor2 := omega * (1 - t2) * (1 + 1 / t2) - t2 in
  let second_term := jw_B o / rho * factor2 * exp (- (1) / t2 / omega) in
  let third_term := omega * (omega + 1) * e in
  sqrt (first_term + second_term + third_term).

(** The object seen through the base class; the interpolation constants keep the values of
    source/euler_aeos/equation_of_state.h:45-57. *)
Definition jw_eos (o : jwl) : eos :=
  {| eos_pressure := jw_pressure o; eos_specific_internal_energy := jw_sie o; eos_speed_of_sound := jw_speed_of_sound o;
     interp_b := 0; interp_pinf := 0; interp_q := 0 |}.

(** ** The variants for arrays *)

(** std::transform over two ranges, source/euler_aeos/equation_of_state.h:90-94, 121-127,
    153-158, 184-189: the values written to the first argument.  [None]: the sizes differ (an
    assertion in debug mode, out of bounds otherwise). *)
Fixpoint transform2 (f : R -> R -> R) (x y : list R) : option (list R) :=
  match x, y with
  | [], [] => Some []
  | a :: x', b :: y' => match transform2 f x' y' with Some l => Some (f a b :: l) | None => None end
  | _, _ => None
  end.

(** The array variant of pressure() of the base class, source/euler_aeos/equation_of_state.h:83-95. *)
Definition base_pressure (e : eos) (rho energy : list R) : option (list R) := transform2 (eos_pressure e) rho energy.

(** Sesame::pressure, scalar and array variant,
    source/euler_aeos/equation_of_state_sesame.h:239-261 and 264-308; [table] is the value
    returned by eospac for one pair.  Simplified: the set up of the data base is not
    modelled.  The array variant also returns the overwritten arguments rho and e. *)
Definition sesame_pressure (table : R -> R -> R) (rho e : R) : R :=
  let rho_scaled := rho / 1000 in
  let e_scaled := e / 1000000 in
  1000000000 * table rho_scaled e_scaled.

(** See the comment above, source/euler_aeos/equation_of_state_sesame.h:239-261. *)
Definition sesame_pressure_array (table : R -> R -> R) (rho e : list R) : option (list R * list R * list R) :=
  let rho := map (fun rho => rho / 1000) rho in
  let e := map (fun e => e / 1000000) e in
  match transform2 table rho e with
  | None => None
  | Some p => Some (map (fun it => it * 1000000000) p, rho, e)
  end.

(** Sesame::specific_internal_energy, scalar and array variant,
    source/euler_aeos/equation_of_state_sesame.h:311-333 and 336-381. *)
Definition sesame_sie (table : R -> R -> R) (rho p : R) : R :=
  let rho_scaled := rho / 1000 in
  let p_scaled := p / 1000000000 in
  1000000 * table rho_scaled p_scaled.

(** See the comment above, source/euler_aeos/equation_of_state_sesame.h:311-333. *)
Definition sesame_sie_array (table : R -> R -> R) (rho p : list R) : option (list R * list R * list R) :=
  let rho := map (fun rho => rho / 1000) rho in
  let p := map (fun it => it / 1000000000) p in
  match transform2 table rho p with
  | None => None
  | Some e => Some (map (fun e => e * 1000000) e, rho, p)
  end.
