(** * Model: vectorized access to vectors and the loops built from it

    source/simd.h:230-478 and the loops of the form
    source/hyperbolic_module.template.h:165-187 and
    source/navier_stokes/parabolic_solver.template.h:261-288, 797-828.
    Simplifications: a VectorizedArray is the list of its lanes and an operation on it
    acts on every lane; an access outside of the vector is undefined behaviour (None). *)
From Coq Require Import List Arith Bool.
Import ListNotations.

Section Access.
Context {A : Type}.

(** get_entry<VectorizedArray>(vector, i), source/simd.h:243-260: load() of [w]
    consecutive values; for w = 1 local_element(i). *)
Definition get_entry (w : nat) (v : list A) (i : nat) : option (list A) :=
  if Nat.leb (i + w) (length v) then Some (firstn w (skipn i v)) else None.

(** get_entry<VectorizedArray>(vector, js), source/simd.h:306-325: gather(). *)
Fixpoint gather (v : list A) (js : list nat) : option (list A) :=
  match js with
  | [] => Some []
  | j :: r => match nth_error v j, gather v r with
              | Some a, Some l => Some (a :: l)
              | _, _ => None
              end
  end.

(** write_entry(vector, values, i), source/simd.h:359-374: store(). *)
Definition write_entry (v : list A) (values : list A) (i : nat) : option (list A) :=
  if Nat.leb (i + length values) (length v)
  then Some (firstn i v ++ values ++ skipn (i + length values) v) else None.
End Access.

(** The fallback for mismatched types, source/simd.h:284-293: a loop over the lanes. *)
Fixpoint get_converted {A B : Type} (cv : A -> B) (w : nat) (v : list A) (i : nat) : option (list B) :=
  match w with
  | 0 => Some []
  | S w' => match nth_error v i, get_converted cv w' v (S i) with
            | Some a, Some l => Some (cv a :: l)
            | _, _ => None
            end
  end.

(** Replacement of one element of an array, as in the loops of source/simd.h:284-293, 397-406. *)
Definition put {A : Type} (v : list A) (i : nat) (a : A) : option (list A) :=
  if Nat.ltb i (length v) then Some (firstn i v ++ a :: skipn (S i) v) else None.

(** The fallback of write_entry(), source/simd.h:397-406. *)
Fixpoint write_converted {A B : Type} (cv : B -> A) (v : list A) (values : list B) (i : nat) : option (list A) :=
  match values with
  | [] => Some v
  | b :: r => match put v i (cv b) with Some v' => write_converted cv v' r (S i) | None => None end
  end.

(** ** Tensors: nested lists *)
(** dealii::Tensor<rank, dim, Number> as in source/simd.h:458-473. *)
Fixpoint tensor (A : Type) (rank : nat) : Type :=
  match rank with 0 => A | S r => list (tensor A r) end.

(** All reads of a loop succeed; no counterpart in /repo, used for source/simd.h:458-473. *)
Fixpoint all_some {A : Type} (l : list (option A)) : option (list A) :=
  match l with
  | [] => Some []
  | Some a :: r => match all_some r with Some s => Some (a :: s) | None => None end
  | None :: _ => None
  end.

(** serialize_tensor(), source/simd.h:416-433: None if k is not a lane. *)
Fixpoint serialize {A : Type} (rank : nat) : tensor (list A) rank -> nat -> option (tensor A rank) :=
  match rank with
  | 0 => fun lanes k => nth_error lanes k
  | S r => fun t k => all_some (map (fun e => serialize r e k) t)
  end.

(** assign_serial_tensor(), source/simd.h:458-473: the loops run over the components
    of the result; None if the serial tensor has fewer. *)
Fixpoint assign_all {X Y Z : Type} (g : X -> Y -> option Z) (l : list X) (m : list Y) : option (list Z) :=
  match l, m with
  | [], _ => Some []
  | x :: l', y :: m' => match g x y, assign_all g l' m' with Some z, Some r => Some (z :: r) | _, _ => None end
  | _ :: _, [] => None
  end.
(** See the comment above, source/simd.h:458-473. *)
Fixpoint assign_serial {A : Type} (rank : nat) : tensor (list A) rank -> tensor A rank -> nat -> option (tensor (list A) rank) :=
  match rank with
  | 0 => fun lanes a k => put lanes k a
  | S r => fun t s k => assign_all (fun x y => assign_serial r x y k) t s
  end.

(** ** Loops *)

(** The iterations of for (i = left; i < right; i += stride): their first index and
    their stride, source/hyperbolic_module.template.h:370 with
    source/simd.h:48-52. *)
Definition iterations (left right stride : nat) : list (nat * nat) :=
  map (fun j => (left + j * stride, stride)) (seq 0 ((right - left + stride - 1) / stride)).

(** loop(Number(), n_internal, n_owned); loop(VA(), 0, n_internal),
    source/hyperbolic_module.template.h:185-187. *)
Definition tasks (width n_internal n_owned : nat) : list (nat * nat) :=
  iterations n_internal n_owned 1 ++ iterations 0 n_internal width.

(** n_regular, source/navier_stokes/parabolic_solver.template.h:238. *)
Definition n_regular (width n_owned : nat) : nat := n_owned / width * width.

Section Loop.
Context {A B : Type}.
(** What the body computes from the entry of its row and from the entries of an input
    vector in the columns of the row; [columns]: source/hyperbolic_module.template.h:384-388. *)
Variable body : A -> list B -> A.
Variable input : list B.
Variable columns : nat -> list nat.

(** js + col_idx * stride_size: the columns with the number c of the rows i, ...,
    i + w - 1.  E.g. source/hyperbolic_module.template.h:384-388, 940-942. *)
Definition js (i w c : nat) : list nat := map (fun r => nth c (columns r) 0) (seq i w).

(** The values read by one iteration: the lanes of the own rows, and for each column
    number the lanes of the input.  E.g. source/hyperbolic_module.template.h:376-392. *)
Definition read_row (i w : nat) (v : list A) : option (list A * list (list B)) :=
  match get_entry w v i, all_some (map (fun c => gather input (js i w c)) (seq 0 (length (columns i)))) with
  | Some own, Some others => Some (own, others)
  | _, _ => None
  end.

(** The body on every lane.  E.g. source/hyperbolic_module.template.h:376-410. *)
Definition lanes (w : nat) (own : list A) (others : list (list B)) (default : B) : list A :=
  map (fun ka => body (snd ka) (map (fun l => nth (fst ka) l default) others)) (combine (seq 0 w) own).

(** The threads: each iteration first reads, then writes; in any interleaving.  Rows
    of length one are skipped, source/hyperbolic_module.template.h:372-375. *)
Inductive phase := Waiting | Computed (values : list A) | Written | Fault.
(** The data and the phase of every iteration, source/hyperbolic_module.template.h:369-370. *)
Record state := { memory : list A; phases : list phase }.

Variable default : B.
Variable todo : list (nat * nat).

(** Change of the phase of an iteration, source/hyperbolic_module.template.h:369-370. *)
Definition advance (i w : nat) (p : phase) (v : list A) : phase * list A :=
  match p with
  | Waiting => if Nat.eqb (length (columns i)) 1 then (Written, v) else
               match read_row i w v with Some (own, others) => (Computed (lanes w own others default), v) | None => (Fault, v) end
  | Computed values => match write_entry v values i with Some v' => (Written, v') | None => (Fault, v) end
  | Written => (Written, v)
  | Fault => (Fault, v)
  end.

(** One step of the thread that has the iteration number t.
    source/hyperbolic_module.template.h:369-370. *)
Inductive step : state -> state -> Prop :=
| step_task : forall t i w p s,
    nth_error todo t = Some (i, w) -> nth_error (phases s) t = Some p -> (p = Waiting \/ exists values, p = Computed values) ->
    step s {| memory := snd (advance i w p (memory s));
              phases := firstn t (phases s) ++ fst (advance i w p (memory s)) :: skipn (S t) (phases s) |}.

(** A schedule of the threads, source/hyperbolic_module.template.h:369-370. *)
Inductive steps : nat -> state -> state -> Prop :=
| steps_refl : forall s, steps 0 s s
| steps_next : forall n s1 s2 s3, steps n s1 s2 -> step s2 s3 -> steps (S n) s1 s3.

(** No iteration has begun, source/hyperbolic_module.template.h:369-370. *)
Definition start (v : list A) : state := {| memory := v; phases := map (fun _ => Waiting) todo |}.
End Loop.
Arguments Waiting {A}. Arguments Written {A}. Arguments Fault {A}. Arguments Computed {A}.
