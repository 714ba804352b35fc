(** * C01 - C03: the sparse matrix with SIMD layout (property theorems) *)
From Coq Require Import List Arith Lia Permutation Sorted Bool.
From Verif Require Import Vec Opt Sparse SparseSpec SparseProofs.
Import ListNotations.

(** A concrete input: SIMD width 2, four vectorized rows, five owned rows and
    one ghost row. *)
Definition ex_dsp : list (list nat) :=
  [[0; 1; 4]; [0; 1; 2]; [1; 2; 3]; [2; 3; 5]; [4; 0; 5]].

Example C01_input : good_input 2 4 5 6 ex_dsp.
Proof. apply good_inputb_ok. vm_compute. reflexivity. Qed.

(** ** C03: reinit *)

(** On every admissible input reinit performs no invalid access, and the
    pattern stores for each owned row its own index first and then exactly the
    other columns of the input in ascending order; for each ghost row its own
    index first and then the owned rows that couple to it in ascending
    order. *)
Theorem C03_reinit_pattern :
  forall w ni n_owned n_rel dsp,
    good_input w ni n_owned n_rel dsp ->
    exists p, reinit w ni n_owned n_rel dsp = Some p /\
      n_rows p = n_rel /\
      forall i, i < n_rel ->
        exists tail, row_length p i = Some (S (length tail)) /\
          (forall q, q <= length tail -> column p i q = Some (nth q (i :: tail) 0)) /\
          StronglySorted lt tail /\
          (i < n_owned -> Permutation (i :: tail) (nth i dsp [])) /\
          (n_owned <= i -> forall j,
              In j tail <-> j < n_owned /\ In i (nth j dsp [])).
Proof. exact C03_reinit_pattern_proof. Qed.
Print Assumptions C03_reinit_pattern.

(** Reading the transposed entry of (i,j) through its position in row i gives
    the entry stored at the position of column i in row j; scalar access. *)
Theorem C03_transposed :
  forall (A : Type) w ni n_owned n_rel dsp p nc (data : list A) i q j q' len len',
    good_input w ni n_owned n_rel dsp ->
    reinit w ni n_owned n_rel dsp = Some p ->
    0 < nc ->
    i < n_rel -> row_length p i = Some len -> q < len -> column p i q = Some j ->
    row_length p j = Some len' -> q' < len' -> column p j q' = Some i ->
    get_transposed_tensor p nc data i q = get_tensor p nc data j q'.
Proof. exact C03_transposed_proof. Qed.
Print Assumptions C03_transposed.

(** That position exists and is unique for every stored entry. *)
Theorem C03_transposed_exists :
  forall w ni n_owned n_rel dsp p i q j len,
    good_input w ni n_owned n_rel dsp ->
    reinit w ni n_owned n_rel dsp = Some p ->
    i < n_rel -> row_length p i = Some len -> q < len -> column p i q = Some j ->
    exists q' len', row_length p j = Some len' /\ q' < len' /\ column p j q' = Some i /\
      forall q'', q'' < len' -> column p j q'' = Some i -> q'' = q'.
Proof. exact C03_transposed_exists_proof. Qed.
Print Assumptions C03_transposed_exists.

(** Vectorized variant (scalar valued matrices): the lanes are the transposed
    entries of the rows of the stride. *)
Theorem C03_transposed_vectorized :
  forall (A : Type) w ni n_owned n_rel dsp p (data : list A) i q len,
    good_input w ni n_owned n_rel dsp ->
    reinit w ni n_owned n_rel dsp = Some p ->
    i < ni -> i mod w = 0 -> row_length p i = Some len -> q < len ->
    length data = nnz p ->
    exists lanes, get_transposed_v p data i q = Some lanes /\ length lanes = w /\
      forall k, k < w -> exists x, nth_error lanes k = Some x /\
         get_transposed_tensor p 1 data (i + k) q = Some [x].
Proof. exact C03_transposed_vectorized_proof. Qed.
Print Assumptions C03_transposed_vectorized.

Example C03_instance :
  exists p, reinit 2 4 5 6 ex_dsp = Some p /\
    row_length p 5 = Some 3 /\ column p 5 0 = Some 5 /\ column p 5 1 = Some 3 /\
    column p 5 2 = Some 4 /\ column p 3 2 = Some 5 /\
    get_transposed_tensor p 2 (seq 100 36) 5 1 = Some [121; 123] /\
    get_tensor p 2 (seq 100 36) 3 2 = Some [121; 123] /\
    get_transposed_v p (seq 100 18) 2 1 = Some [105; 110].
Proof. eexists. repeat (split; [vm_compute; reflexivity|]). vm_compute. reflexivity. Qed.

(** ** C01: the matrix behaves like a two-dimensional array *)

(** Any sequence of (scalar or vectorized) writes to valid entries is defined,
    and afterwards every valid entry reads as in the abstract matrix, a
    function of row and position that is overwritten at exactly the addressed
    entries. *)
Theorem C01_writes_refine :
  forall (A : Type) w ni n_owned n_rel dsp p nc (data : list A) m os,
    good_input w ni n_owned n_rel dsp ->
    reinit w ni n_owned n_rel dsp = Some p ->
    0 < nc -> length data = nnz p * nc ->
    (forall i q len, i < n_rel -> row_length p i = Some len -> q < len ->
        get_tensor p nc data i q = Some (m i q)) ->
    Forall (op_ok p nc) os ->
    exists data', foldM (run_op p nc) data os = Some data' /\
      length data' = length data /\
      forall i q len, i < n_rel -> row_length p i = Some len -> q < len ->
        get_tensor p nc data' i q = Some (fold_left apply_op os m i q).
Proof. exact C01_writes_refine_proof. Qed.
Print Assumptions C01_writes_refine.

(** Every valid entry of a matrix of the right size can be read. *)
Theorem C01_reads_defined :
  forall (A : Type) w ni n_owned n_rel dsp p nc (data : list A) i q len,
    good_input w ni n_owned n_rel dsp ->
    reinit w ni n_owned n_rel dsp = Some p ->
    length data = nnz p * nc ->
    i < n_rel -> row_length p i = Some len -> q < len ->
    exists e, get_tensor p nc data i q = Some e /\ length e = nc.
Proof. exact C01_reads_defined_proof. Qed.
Print Assumptions C01_reads_defined.

(** Single write, spelled out: what is written is read back and no other entry
    changes. *)
Theorem C01_write_read :
  forall (A : Type) w ni n_owned n_rel dsp p nc (data : list A) i q e,
    good_input w ni n_owned n_rel dsp ->
    reinit w ni n_owned n_rel dsp = Some p ->
    0 < nc -> length data = nnz p * nc ->
    op_ok p nc (WriteOne i q e) ->
    exists data', write_tensor p nc data i q e = Some data' /\
      get_tensor p nc data' i q = Some e /\
      forall i' q' len, i' < n_rel -> row_length p i' = Some len -> q' < len ->
        (i', q') <> (i, q) ->
        get_tensor p nc data' i' q' = get_tensor p nc data i' q'.
Proof. exact C01_write_read_proof. Qed.
Print Assumptions C01_write_read.

(** read_in copies a (distributed) matrix: every entry of every owned row
    afterwards equals the entry of the source matrix with the same row and
    column. *)
Theorem C01_read_in :
  forall (A : Type) w ni n_owned n_rel dsp p nc (data : list A) (m : nat -> nat -> list A),
    good_input w ni n_owned n_rel dsp ->
    reinit w ni n_owned n_rel dsp = Some p ->
    0 < nc -> length data = nnz p * nc ->
    (forall i j, length (m i j) = nc) ->
    exists data', read_in p nc m data = Some data' /\ length data' = length data /\
      (forall i q j len, i < n_owned -> row_length p i = Some len -> q < len ->
        column p i q = Some j -> get_tensor p nc data' i q = Some (m i j)) /\
      (forall i q len, n_owned <= i -> i < n_rel -> row_length p i = Some len -> q < len ->
        get_tensor p nc data' i q = get_tensor p nc data i q).
Proof. exact C01_read_in_proof. Qed.
Print Assumptions C01_read_in.

Example C01_instance :
  exists p, reinit 2 4 5 6 ex_dsp = Some p /\ nnz p = 18 /\
   exists data, foldM (run_op p 2) (seq 100 36)
       [WriteOne 4 1 [7; 8]; WriteStride 2 1 [[1; 2]; [3; 4]]] = Some data /\
     get_tensor p 2 data 4 1 = Some [7; 8] /\ get_tensor p 2 data 3 1 = Some [3; 4] /\
     get_tensor p 2 data 2 1 = Some [1; 2] /\ get_tensor p 2 data 3 2 = Some [121; 123].
Proof. eexists; split; [vm_compute; reflexivity|]. split; [vm_compute; reflexivity|].
  eexists. repeat (split; [vm_compute; reflexivity|]). vm_compute. reflexivity. Qed.

(** ** C02: vectorized access is lane-wise access *)

Theorem C02_vector_read :
  forall (A : Type) w ni n_owned n_rel dsp p nc (data : list A) i q len,
    good_input w ni n_owned n_rel dsp ->
    reinit w ni n_owned n_rel dsp = Some p ->
    length data = nnz p * nc ->
    i < ni -> i mod w = 0 -> row_length p i = Some len -> q < len ->
    exists regs, get_tensor_v p nc data i q = Some regs /\ length regs = nc /\
      forall d k, d < nc -> k < w ->
        exists reg e x, nth_error regs d = Some reg /\ length reg = w /\
          nth_error reg k = Some x /\
          get_tensor p nc data (i + k) q = Some e /\ nth_error e d = Some x.
Proof. exact C02_vector_read_proof. Qed.
Print Assumptions C02_vector_read.

(** [lanes] holds the tensors of the rows of the stride; the registers written
    are their transposition.  The resulting memory is the same. *)
Theorem C02_vector_write :
  forall (A : Type) w ni n_owned n_rel dsp p nc (data : list A) i q lanes,
    good_input w ni n_owned n_rel dsp ->
    reinit w ni n_owned n_rel dsp = Some p ->
    0 < nc -> length data = nnz p * nc ->
    op_ok p nc (WriteStride i q lanes) ->
    exists data', run_op p nc data (WriteStride i q lanes) = Some data' /\
      foldM (fun data ke => write_tensor p nc data (i + fst ke) q (snd ke))
        data (combine (seq 0 w) lanes) = Some data'.
Proof. exact C02_vector_write_proof. Qed.
Print Assumptions C02_vector_write.

Example C02_instance :
  exists p, reinit 2 4 5 6 ex_dsp = Some p /\
    get_tensor_v p 2 (seq 100 36) 2 1 = Some [[116; 117]; [118; 119]] /\
    get_tensor p 2 (seq 100 36) 2 1 = Some [116; 118] /\
    get_tensor p 2 (seq 100 36) 3 1 = Some [117; 119] /\
    op_ok p 2 (WriteStride 2 1 [[1; 2]; [3; 4]]).
Proof. eexists; do 4 (split; [vm_compute; reflexivity|]). repeat split.
  - apply Nat.ltb_lt. vm_compute. reflexivity.
  - exists 3. split; [vm_compute; reflexivity|lia].
  - intros e [<-|[<-|[]]]; reflexivity. Qed.
