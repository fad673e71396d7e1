(* A feed-forward network in the usual sense: every output is the logistic function of the
   weighted sum of the inputs plus the bias of that output. *)
From Coq Require Import Reals List Arith.
From Verif Require Import BaseReal AnnModel.
Import ListNotations.
Local Open Scope R_scope.

Definition logistic (s : R) : R := / (1 + exp (- s)).
Fixpoint network (n : nat) (x : nat -> R) (ls : list ann_layer) : nat -> R :=
  match ls with
  | [] => x
  | l :: rest => network (width l) (fun j => logistic (sumn n (fun i => weights l i j * x i) + biases l j)) rest
  end.
Definition last_width (n : nat) (ls : list ann_layer) : nat := last (map width ls) n.
