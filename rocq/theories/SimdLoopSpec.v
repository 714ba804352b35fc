(** * Notions for vectorized loops *)
From Coq Require Import List Arith.
From Verif Require Import SimdLoop.
Import ListNotations.

(** What a serial loop stores in row r that holds a. *)
Definition serial_row {A B : Type} (body : A -> list B -> A) (input : list B) (default : B) (columns : nat -> list nat) (r : nat) (a : A) : A :=
  if Nat.eqb (length (columns r)) 1 then a else body a (map (fun j => nth j input default) (columns r)).

(** The shape of a tensor with n lanes. *)
Fixpoint shaped {A : Type} (rank n : nat) : tensor (list A) rank -> Prop :=
  match rank with 0 => fun l => length l = n | S r => fun t => Forall (shaped r n) t end.

(** Both tensors have the same dimensions. *)
Fixpoint conforms {A B : Type} (rank : nat) : tensor A rank -> tensor B rank -> Prop :=
  match rank with 0 => fun _ _ => True | S r => fun t s => Forall2 (conforms r) t s end.
