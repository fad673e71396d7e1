(* The boundary of a mesh, said with the sides alone. *)
From Coq Require Import List Arith ZArith Bool Permutation.
From Verif Require Import PatchModel.
Import ListNotations.

(* Two sides are the same when they have the same nodes in some order. *)
Definition same_side (a b : list Z) : Prop := Permutation a b.
(* A side that no other place of the list has. *)
Definition alone (l : list (list Z)) (i : nat) : Prop := forall j, (j < length l)%nat -> j <> i -> ~ same_side (nth i l []) (nth j l []).
(* All nodes of a surface exist in the element. *)
Definition fits (convert : nat -> nat) (surfaces : list (list nat)) (e : list Z) : Prop := forall s i, In s surfaces -> In i s -> (convert i < length e)%nat.
(* The elements a process holds: those with a node of its own. *)
Definition held (mine : Z -> bool) (elems : list (list Z)) : list (list Z) := filter (fun e => existsb mine e) elems.
