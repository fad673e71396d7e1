(** What is claimed about the artificial viscosity. *)
From Verif Require Import BaseReal MarsModel.
Local Open Scope R_scope.

(** physically meaningful inputs: non-negative density, sound speed and coefficients, floors in [0,1] *)
Record mars_inputs (q : mars_vars) (fuzz den sspd : R) : Prop := mk_mars_inputs {
  mi_q : 0 <= q1 q /\ 0 <= q1ex q /\ 0 <= q2 q /\ 0 <= q2ex q;
  mi_floor : 0 <= phi_floor q <= 1;
  mi_fuzz : 0 < fuzz;
  mi_den : 0 <= den;
  mi_sspd : 0 <= sspd
}.

(** A viscous corner force F on an element with nn nodes moving with velocity v never does positive work on
    the nodes, and either sums to zero exactly or is everywhere negligible (below fuzz times the velocity). *)
Record viscous (nn nd : nat) (fuzz : R) (F v : nat -> nat -> R) : Prop := mk_viscous {
  visc_work : sumn nn (fun l => sumn nd (fun d => F l d * v l d)) <= 0;
  visc_balance : (forall d, sumn nn (fun l => F l d) = 0) \/
                 (forall l d, (l < nn)%nat -> Rabs (F l d) <= fuzz * Rabs (v l d))
}.

(** the same flow seen by an observer moving with velocity -c *)
Definition shift (v : nat -> nat -> R) (c : nat -> R) : nat -> nat -> R := fun l d => v l d + c d.

(** the flow spinning the other way *)
Definition transpose (vg : nat -> nat -> R) : nat -> nat -> R := fun i j => vg j i.

(** The outward corner normals of a box with faces normal to the axes: [A d] is a quarter (3D) or half (2D) of the face normal to axis [d],
    corner [l] of the hexahedron lies on the high side of axis [d] when bit [d] of [l] is set, the quad is numbered around. *)
Definition box_normals (A : nat -> R) (l d : nat) : R := if Nat.testbit l d then A d else - A d.
Definition rect_normals (A : nat -> R) (l d : nat) : R :=
  if (match d with O => Nat.eqb l 1 || Nat.eqb l 2 | _ => Nat.eqb l 2 || Nat.eqb l 3 end)%bool then A d else - A d.
