(** * Selected components

    source/selected_components_extractor.h.  [None]: an exception (AssertThrow).
    A multi component vector is its contiguous storage (MultiVec.v has the model with
    checked accesses); a scalar vector is given by its locally owned entries.  Ghost
    values, which the caller updates, are not modelled. *)
From Coq Require Import String List Bool Arith.
Import ListNotations.
Local Open Scope string_scope.

(** The four name tables of a HyperbolicSystemView.
    As used in source/selected_components_extractor.h:51-126. *)
Record tables := Tables {
  component_names : list string;
  primitive_component_names : list string;
  precomputed_names : list string;
  initial_precomputed_names : list string }.

(** std::find followed by std::distance, source/selected_components_extractor.h:72-74 *)
Fixpoint find_index (entry : string) (names : list string) : option nat :=
  match names with
  | [] => None
  | n :: rest => if String.eqb n entry then Some 0
                 else match find_index entry rest with Some k => Some (S k) | None => None end
  end.

(** The lambda search of check(), source/selected_components_extractor.h:29-32 *)
Definition found_in (entry : string) (names : list string) : bool :=
  match find_index entry names with Some _ => true | None => false end.

(** SelectedComponentsExtractor::check, source/selected_components_extractor.h:27-49;
    [true]: it returns. *)
Definition check (t : tables) (selected : list string) : bool :=
  forallb (fun entry => found_in entry (component_names t) || found_in entry (primitive_component_names t) ||
                        found_in entry (precomputed_names t) || found_in entry (initial_precomputed_names t) ||
                        String.eqb entry "alpha") selected.

(** The index pairs, source/selected_components_extractor.h:64-68 *)
Record indices := Indices {
  conserved_indices : list (nat * nat);
  primitive_indices : list (nat * nat);
  precomputed_indices : list (nat * nat);
  initial_indices : list (nat * nat);
  alpha_indices : list nat }.

(** See the comment above, source/selected_components_extractor.h:64-68. *)
Definition no_indices := Indices [] [] [] [] [].

(** The loop over the requested names, source/selected_components_extractor.h:70-93 *)
Fixpoint classify (t : tables) (selected : list string) (i : nat) (x : indices) : option indices :=
  match selected with
  | [] => Some x
  | entry :: rest =>
      match find_index entry (component_names t) with
      | Some k => classify t rest (S i) (Indices (conserved_indices x ++ [(i, k)]) (primitive_indices x) (precomputed_indices x) (initial_indices x) (alpha_indices x))
      | None =>
      match find_index entry (primitive_component_names t) with
      | Some k => classify t rest (S i) (Indices (conserved_indices x) (primitive_indices x ++ [(i, k)]) (precomputed_indices x) (initial_indices x) (alpha_indices x))
      | None =>
      match find_index entry (precomputed_names t) with
      | Some k => classify t rest (S i) (Indices (conserved_indices x) (primitive_indices x) (precomputed_indices x ++ [(i, k)]) (initial_indices x) (alpha_indices x))
      | None =>
      match find_index entry (initial_precomputed_names t) with
      | Some k => classify t rest (S i) (Indices (conserved_indices x) (primitive_indices x) (precomputed_indices x) (initial_indices x ++ [(i, k)]) (alpha_indices x))
      | None =>
      if String.eqb entry "alpha" then
        classify t rest (S i) (Indices (conserved_indices x) (primitive_indices x) (precomputed_indices x) (initial_indices x) (alpha_indices x ++ [i]))
      else None
      end end end end
  end.

Section Extract.
Context {V : Type}.
Variable zero : V.
(** View::to_primitive_state of the equations. *)
Variable to_primitive : (nat -> V) -> (nat -> V).
Variable t : tables.
(** std::get<0>, std::get<1> of the state vector, the initial precomputed vector
    (contiguous storage) and alpha. *)
Variables U prec initial : nat -> V.
Variable alpha : nat -> V.
Variable n_owned : nat.

(** MultiComponentVector::extract_component, source/multicomponent_vector.h:208-225 *)
Definition extract_component (n_comp : nat) (v : nat -> V) (k : nat) (old : nat -> V) : nat -> V :=
  fun i => if Nat.ltb i n_owned then v (i * n_comp + k) else old i.

(** MultiComponentVector::get_tensor, scalar branch, source/multicomponent_vector.h:252-264 *)
Definition get_tensor (n_comp : nat) (v : nat -> V) (i : nat) : nat -> V := fun d => v (i * n_comp + d).

(** Assignment to extracted_components[i].
    source/selected_components_extractor.h:98, 109, 115, 119, 123. *)
Definition modify (out : list (nat -> V)) (i : nat) (f : (nat -> V) -> (nat -> V)) : list (nat -> V) :=
  map (fun '(j, c) => if Nat.eqb j i then f c else c) (combine (seq 0 (length out)) out).

(** SelectedComponentsExtractor::extract, source/selected_components_extractor.h:51-126.
    The loop 109-115 over the owned degrees of freedom is written per entry. *)
Definition extract (selected : list string) : option (list (nat -> V)) :=
  match classify t selected 0 no_indices with
  | None => None
  | Some x =>
      let out0 := repeat (fun _ => zero) (length selected) in
      let out1 := fold_left (fun o '(i, k) => modify o i (extract_component (length (component_names t)) U k)) (conserved_indices x) out0 in
      let out2 := fold_left (fun o '(j, k) =>
                    modify o j (fun c i => if Nat.ltb i n_owned then to_primitive (get_tensor (length (component_names t)) U i) k else c i))
                    (primitive_indices x) out1 in
      let out3 := fold_left (fun o '(i, k) => modify o i (extract_component (length (precomputed_names t)) prec k)) (precomputed_indices x) out2 in
      let out4 := fold_left (fun o '(i, k) => modify o i (extract_component (length (initial_precomputed_names t)) initial k)) (initial_indices x) out3 in
      Some (fold_left (fun o i => modify o i (fun _ => alpha)) (alpha_indices x) out4)
  end.
End Extract.

(** The names of the vector components in [dim] dimensions, e.g. "m" or "m_1", "m_2".
    As in component_names of source/euler/hyperbolic_system.h. *)
Definition vector_names (base : string) (dim : nat) : list string :=
  match dim with
  | 1 => [base]
  | 2 => [base ++ "_1"; base ++ "_2"]
  | _ => [base ++ "_1"; base ++ "_2"; base ++ "_3"]
  end.

(** source/euler/hyperbolic_system.h:240-297 (and source/navier_stokes, which uses it) *)
Definition euler_tables (dim : nat) : tables :=
  Tables ("rho" :: vector_names "m" dim ++ ["E"]) ("rho" :: vector_names "v" dim ++ ["p"]) ["s"; "eta_h"] [].

(** source/euler_aeos/hyperbolic_system.h:335-396 *)
Definition aeos_tables (dim : nat) : tables :=
  Tables ("rho" :: vector_names "m" dim ++ ["E"]) ("rho" :: vector_names "v" dim ++ ["e"])
         ["p"; "surrogate_gamma"; "surrogate_specific_entropy"; "surrogate_harten_entropy"] [].

(** source/shallow_water/hyperbolic_system.h:207-264 *)
Definition shallow_water_tables (dim : nat) : tables :=
  Tables ("h" :: vector_names "m" dim) ("h" :: vector_names "v" dim) ["eta_m"; "h_star"] ["bathymetry"].

(** source/scalar_conservation/hyperbolic_system.h:187-236 *)
Definition scalar_tables (dim : nat) : tables := Tables ["u"] ["u"] (vector_names "f" dim ++ vector_names "df" dim) [].

(** source/skeleton/hyperbolic_system.h:136-193 *)
Definition skeleton_tables (dim : nat) : tables := Tables ["u"] ["u"] [] [].

(** The tables of all equations: component_names etc. in source/{euler,euler_aeos,scalar_conservation,shallow_water,skeleton}/hyperbolic_system.h. *)
Definition shipped_tables (dim : nat) : list tables :=
  [euler_tables dim; aeos_tables dim; shallow_water_tables dim; scalar_tables dim; skeleton_tables dim].
