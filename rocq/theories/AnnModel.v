(* The neural network strength model,
   /repo/apps/multiphysics/src/material_models/strength/host_ann_strength.hpp.  Numbers are
   reals (the code has float); arrays are functions with a length, and a read past the end is
   the outcome [None]. *)
From Coq Require Import Reals List Arith.
From Verif Require Import BaseReal.
Import ListNotations.
Local Open Scope R_scope.

(* ANNLayer_t (47-53): [width] outputs; the weights have the width of the layer before. *)
Record ann_layer := AnnLayer { width : nat; weights : nat -> nat -> R; biases : nat -> R }.
Definition vec := (nat * (nat -> R))%type.

(* forward_propagate_layer_host (77-117): the bias is inside the sum over the inputs.  The team
   reduction is a sum; biases(j) is read for every output as soon as there is an input. *)
Definition forward_layer (inputs : vec) (l : ann_layer) (bias : vec) : option vec :=
  let num_i := fst inputs in let num_j := width l in
  if (Nat.ltb (fst bias) num_j && Nat.ltb 0 num_i)%bool then None else
  Some (num_j, fun j => 1 / (1 + exp (- sumn num_i (fun i => snd inputs i * weights l i j + snd bias j)))).

(* calc_stress (217-262): the first layer, then the others, all with the biases of the first.
   The outputs stay in the layers: the stress of the material point is not an output of the
   function, it is passed through here. *)
Fixpoint forward_rest (first : vec) (inputs : vec) (ls : list ann_layer) : option vec :=
  match ls with
  | [] => Some inputs
  | l :: rest => match forward_layer inputs l first with Some o => forward_rest first o rest | None => None end
  end.
Definition ann_forward (inputs : vec) (ls : list ann_layer) : option vec :=
  match ls with
  | [] => Some inputs
  | l :: rest =>
    let first := (width l, biases l) in
    match forward_layer inputs l first with Some o => forward_rest first o rest | None => None end
  end.
Definition ann_calc_stress {S G : Type} (inputs : vec) (ls : list ann_layer) (vel_grad : G) (stress : S) : option S :=
  match ann_forward inputs ls with Some _ => Some stress | None => None end.

(* init_strength_state_vars (157-213) with set_weights_host and set_biases_host (55-75): layers
   of the given widths, the first width being that of the inputs. *)
Definition init_layers (widths : list nat) : list ann_layer := map (fun n => AnnLayer n (fun _ _ => 1) (fun _ => 0)) (tl widths).
Definition init_inputs (widths : list nat) : vec := (hd 0%nat widths, fun _ => 1).
(* num_nodes_in_layer (44) *)
Definition ann_widths : list nat := [6; 3; 1]%nat.
