(** * What may be assumed of the input of SparsityPatternSIMD::reinit, and the
    abstract meaning of a sequence of matrix writes *)
From Coq Require Import List Arith Bool.
From Verif Require Import Opt Sparse.
Import ListNotations.

(** [dsp] lists, for every locally owned row, its columns in local numbering.
    The rows contain their diagonal, owned/owned couplings are symmetric and
    the row length is the same throughout each SIMD stride of the vectorized
    range [0, ni). *)
Record good_input (w ni n_owned n_rel : nat) (dsp : list (list nat)) : Prop := {
  gi_width : 0 < w;
  gi_multiple : exists q, ni = q * w;
  gi_internal : ni <= n_owned;
  gi_owned : n_owned <= n_rel;
  gi_rows : length dsp = n_owned;
  gi_nodup : forall i r, nth_error dsp i = Some r -> NoDup r;
  gi_diag : forall i r, nth_error dsp i = Some r -> In i r;
  gi_range : forall i r j, nth_error dsp i = Some r -> In j r -> j < n_rel;
  gi_sym : forall i j r r', nth_error dsp i = Some r -> nth_error dsp j = Some r' ->
      In j r -> In i r';
  gi_uniform : forall s k r r', k < w -> s * w + k < ni ->
      nth_error dsp (s * w) = Some r -> nth_error dsp (s * w + k) = Some r' ->
      length r' = length r }.

(** A user-level write: one (tensor valued) entry, or the entries of all lanes
    of a stride ([lanes] lists the tensors of rows row, row+1, ...). *)
Inductive write_op (A : Type) :=
| WriteOne (row pos : nat) (entry : list A)
| WriteStride (row pos : nat) (lanes : list (list A)).
Arguments WriteOne {A}. Arguments WriteStride {A}.

(** The abstract matrix: a function of row and position. *)
Definition apply_op {A} (m : nat -> nat -> list A) (o : write_op A)
  : nat -> nat -> list A :=
  match o with
  | WriteOne row pos e =>
      fun i q => if andb (Nat.eqb i row) (Nat.eqb q pos) then e else m i q
  | WriteStride row pos lanes =>
      fun i q => if andb (Nat.eqb q pos) (Nat.leb row i)
                 then nth (i - row) lanes (m i q) else m i q
  end.

Definition op_ok {A} (p : simd_pattern) (nc : nat) (o : write_op A) : Prop :=
  match o with
  | WriteOne row pos e =>
      row < n_rows p /\ (exists len, row_length p row = Some len /\ pos < len) /\
      length e = nc
  | WriteStride row pos lanes =>
      row < sp_internal p /\ Nat.modulo row (sp_width p) = 0 /\
      (exists len, row_length p row = Some len /\ pos < len) /\
      length lanes = sp_width p /\ (forall e, In e lanes -> length e = nc)
  end.

(** The same write on the implementation. The vectorized variant receives, for
    every component, the register of its lanes. *)
Definition run_op {A} (p : simd_pattern) (nc : nat) (data : list A) (o : write_op A)
  : option (list A) :=
  match o with
  | WriteOne row pos e => write_tensor p nc data row pos e
  | WriteStride row pos lanes =>
      regs <- mapM (fun d => mapM (fun e => nth_error e d) lanes) (seq 0 nc) ;;
      write_tensor_v p nc data row pos regs
  end.

(** Number of stored entries (0 if the pattern is invalid). *)
Definition nnz (p : simd_pattern) : nat :=
  match n_nonzero p with Some n => n | None => 0 end.

(** Decision procedure for [good_input], to check concrete inputs. *)
Definition good_inputb (w ni n_owned n_rel : nat) (dsp : list (list nat)) : bool :=
  let mem j r := if in_dec Nat.eq_dec j r then true else false in
  (0 <? w) && (ni mod w =? 0) && (ni <=? n_owned) && (n_owned <=? n_rel) &&
  (length dsp =? n_owned) &&
  forallb (fun i => let r := nth i dsp [] in
     (if list_eq_dec Nat.eq_dec (nodup Nat.eq_dec r) r then true else false) && mem i r &&
     forallb (fun j => (j <? n_rel) && ((n_owned <=? j) || mem i (nth j dsp []))) r &&
     ((ni <=? i) || (length r =? length (nth (i / w * w) dsp []))))
    (seq 0 n_owned).
