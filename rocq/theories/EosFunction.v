(** * Model: the equation of state given by expressions

    source/euler_aeos/equation_of_state_function.h.  An expression is the function of
    two variables that it denotes; muparser is not modelled. *)
From Coq Require Import Reals.
From Verif Require Import AeosSystem.
Local Open Scope R_scope.

(** A function expression in the variables (rho, e) or (rho, p),
    source/euler_aeos/equation_of_state_function.h:83-93. *)
Definition expression := R -> R -> R.

(** Members, source/euler_aeos/equation_of_state_function.h:120-129, and the
    interpolation constants of the base class,
    source/euler_aeos/equation_of_state.h:226-228. *)
Record function_eos := {
  fn_p_expression : expression; fn_sie_expression : expression; fn_sos_expression : expression; fn_temperature_expression : expression;
  fn_p : expression; fn_sie : expression; fn_sos : expression; fn_temperature : expression;
  fn_b : R; fn_pinfty : R; fn_q : R }.

(** set_up_muparser, source/euler_aeos/equation_of_state_function.h:81-94. *)
Definition set_up_muparser (o : function_eos) : function_eos :=
  {| fn_p_expression := fn_p_expression o; fn_sie_expression := fn_sie_expression o;
     fn_sos_expression := fn_sos_expression o; fn_temperature_expression := fn_temperature_expression o;
     fn_p := fn_p_expression o; fn_sie := fn_sie_expression o; fn_sos := fn_sos_expression o; fn_temperature := fn_temperature_expression o;
     fn_b := fn_b o; fn_pinfty := fn_pinfty o; fn_q := fn_q o |}.

(** Constructor, source/euler_aeos/equation_of_state_function.h:29-98; the functions
    are unset before line 96, which is simplified to zero functions; the constants
    are those of source/euler_aeos/equation_of_state.h:45-57. *)
Definition fn_construct : function_eos := set_up_muparser
  {| fn_p_expression := fun rho e => (14 / 10 - 1) * rho * e;
     fn_sie_expression := fun rho p => p / (rho * (14 / 10 - 1));
     fn_sos_expression := fun rho e => sqrt (14 / 10 * (14 / 10 - 1) * e);
     fn_temperature_expression := fun rho e => e / 718;
     fn_p := fun _ _ => 0; fn_sie := fun _ _ => 0; fn_sos := fun _ _ => 0; fn_temperature := fun _ _ => 0;
     fn_b := 0; fn_pinfty := 0; fn_q := 0 |}.

(** The parameters are read in, source/euler_aeos/equation_of_state_function.h:33-75;
    then the call back of line 97 runs. *)
Definition fn_parse (p sie sos temperature : expression) (b pinfty q : R) (o : function_eos) : function_eos := set_up_muparser
  {| fn_p_expression := p; fn_sie_expression := sie; fn_sos_expression := sos; fn_temperature_expression := temperature;
     fn_p := fn_p o; fn_sie := fn_sie o; fn_sos := fn_sos o; fn_temperature := fn_temperature o;
     fn_b := b; fn_pinfty := pinfty; fn_q := q |}.

(** pressure() etc., source/euler_aeos/equation_of_state_function.h:100-118, and the
    constants as the scheme sees them, source/euler_aeos/equation_of_state.h:195-205. *)
Definition fn_eos (o : function_eos) : eos :=
  {| eos_pressure := fn_p o; eos_specific_internal_energy := fn_sie o; eos_speed_of_sound := fn_sos o;
     interp_b := fn_b o; interp_pinf := fn_pinfty o; interp_q := fn_q o |}.
