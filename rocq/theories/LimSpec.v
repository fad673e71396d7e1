(* What the limiters are to do, without reference to how they do it. *)
From Coq Require Import Reals List.
Import ListNotations.
Local Open Scope R_scope.

(* Bounds on the averages of the element and of those around it. *)
Definition bounds (lo hi avg : R) (around : list R) : Prop := lo <= avg <= hi /\ forall a, In a around -> lo <= a <= hi.
(* A value is among the averages if one of them is not above it and one is not below it. *)
Definition among (avg : R) (around : list R) (v : R) : Prop := exists a b, In a (avg :: around) /\ In b (avg :: around) /\ a <= v <= b.
(* The sum with weights, as for the mass of the points. *)
Fixpoint weigh (w v : list R) : R := match w, v with a :: w, b :: v => a * b + weigh w v | _, _ => 0 end.
