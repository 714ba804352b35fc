(** * Selected components: property theorems *)
From Coq Require Import Reals String List Bool Arith Lia.
From Verif Require Import Extractor ExtractorProofs.
From Verif Require EulerSystem AeosSystem SWSystem.
Import ListNotations.
Local Open Scope string_scope.

(** C57: the check at the start accepts exactly the lists of known names, and exactly
    for these the extraction does not raise an exception. *)
Theorem C57_accepts : forall (V : Type) (zero : V) to_primitive t U prec initial alpha n_owned sel,
  (check t sel = true <->
     forall e, In e sel -> In e (component_names t) \/ In e (primitive_component_names t) \/ In e (precomputed_names t) \/
                           In e (initial_precomputed_names t) \/ e = "alpha") /\
  (check t sel = true <-> exists out, extract zero to_primitive t U prec initial alpha n_owned sel = Some out).
Proof. exact @C57_accepts_proof. Qed.
Print Assumptions C57_accepts.

Example C57_accepts_case :
  check (shallow_water_tables 2) ["v_2"; "bathymetry"; "alpha"; "h"; "v_2"] = true /\
  check (shallow_water_tables 1) ["v_2"] = false.
Proof. split; reflexivity. Qed.

(** C57: with tables that repeat no name, the result holds at each requested position the
    component of that name of the first set that has it: conserved, primitive,
    precomputed, initial precomputed, and then the indicator. *)
Theorem C57_extract : forall (V : Type) (zero : V) to_primitive t U prec initial alpha n_owned sel out p e,
  NoDup (component_names t) /\ NoDup (primitive_component_names t) /\ NoDup (precomputed_names t) /\ NoDup (initial_precomputed_names t) ->
  extract zero to_primitive t U prec initial alpha n_owned sel = Some out -> nth_error sel p = Some e ->
  length out = length sel /\
  exists c, nth_error out p = Some c /\ forall i, i < n_owned ->
    (forall k, nth_error (component_names t) k = Some e -> c i = U (i * length (component_names t) + k)) /\
    (~ In e (component_names t) ->
      (forall k, nth_error (primitive_component_names t) k = Some e -> c i = to_primitive (fun d => U (i * length (component_names t) + d)) k) /\
      (~ In e (primitive_component_names t) ->
        (forall k, nth_error (precomputed_names t) k = Some e -> c i = prec (i * length (precomputed_names t) + k)) /\
        (~ In e (precomputed_names t) ->
          (forall k, nth_error (initial_precomputed_names t) k = Some e -> c i = initial (i * length (initial_precomputed_names t) + k)) /\
          (~ In e (initial_precomputed_names t) -> e = "alpha" /\ c i = alpha i)))).
Proof. exact @C57_extract_proof. Qed.
Print Assumptions C57_extract.

(** C57: for the equations of the code a name never stands for two different
    quantities. *)
Theorem C57_shipped : forall (V : Type) (zero : V) (to_primitive : (nat -> V) -> nat -> V) (U prec initial alpha : nat -> V) n_owned dim t sel out p e,
  (forall W, to_primitive W 0 = W 0) -> 1 <= dim <= 3 -> In t (shipped_tables dim) ->
  extract zero to_primitive t U prec initial alpha n_owned sel = Some out -> nth_error sel p = Some e ->
  exists c, nth_error out p = Some c /\ forall i, i < n_owned ->
    (forall k, nth_error (component_names t) k = Some e -> c i = U (i * length (component_names t) + k)) /\
    (forall k, nth_error (primitive_component_names t) k = Some e -> c i = to_primitive (fun d => U (i * length (component_names t) + d)) k) /\
    (forall k, nth_error (precomputed_names t) k = Some e -> c i = prec (i * length (precomputed_names t) + k)) /\
    (forall k, nth_error (initial_precomputed_names t) k = Some e -> c i = initial (i * length (initial_precomputed_names t) + k)) /\
    (e = "alpha" -> c i = alpha i).
Proof. exact @C57_shipped_proof. Qed.
Print Assumptions C57_shipped.

(** The hypothesis on the first primitive component holds for all equations; a request
    with a repeated name and names of all sets. *)
Example C57_shipped_case :
  (forall s dim W, EulerSystem.to_primitive_state s dim W 0 = W 0) /\
  (forall dim W, AeosSystem.a_to_primitive_state dim W 0 = W 0) /\
  (forall s eps dim W, SWSystem.w_to_primitive_state s eps dim W 0 = W 0) /\
  exists out, extract 0 (fun W d => if Nat.eqb d 0 then W 0 else W d * 10) (shallow_water_tables 2) (fun i => 100 + i) (fun i => 200 + i) (fun i => 300 + i) (fun i => 400 + i) 2
    ["v_2"; "bathymetry"; "m_1"; "alpha"; "h_star"; "v_2"; "h"] = Some out /\
  map (fun c => c 1) out = [1050; 301; 104; 401; 203; 1050; 103]%nat.
Proof.
  split; [reflexivity|]. split; [reflexivity|]. split; [reflexivity|]. eexists. split; [reflexivity|]. reflexivity.
Qed.
