(** Vocabulary for the properties of cohesive zones. *)
From Coq Require Import Reals List Lia Lra.
From Verif Require Import BaseArr BaseReal FracModel.
Import ListNotations.
Open Scope R_scope.

(** two nodes at the same place up to the tolerance *)
Definition coincident (x : nat -> vec) (tol : R) (a b : nat) : Prop := forall k, (k < 3)%nat -> Rabs (x a k - x b k) <= tol.

Definition unit_vec (n : vec) : Prop := vdot n n = 1.
Definition vminus (a b : vec) : vec := fun k => a k - b k.
Definition vplus (a b : vec) : vec := fun k => a k + b k.
Definition vscale (c : R) (a : vec) : vec := fun k => c * a k.
Definition same3 (a b : vec) : Prop := forall k, (k < 3)%nat -> a k = b k.

(** rotations (and reflections) *)
Definition orthonormal (Q : nat -> vec) : Prop :=
  forall i j, (i < 3)%nat -> (j < 3)%nat -> sumn 3 (fun k => Q k i * Q k j) = if Nat.eqb i j then 1 else 0.
Definition turn (Q : nat -> vec) (v : vec) : vec := fun i => vdot (Q i) v.

(** node g is a corner of face f of the element with nodes [nodes] *)
Definition corner_of (nodes : nat -> nat) (f g : nat) : Prop :=
  exists fc c, face_corners f = Some fc /\ In c fc /\ nodes c = g.

(** two faces in the same place seen from opposite sides *)
Definition facing (x : nat -> vec) (nodesA nodesB : nat -> nat) (tol : R) (fA fB : nat) : Prop :=
  let A := face_geometry x nodesA fA in let B := face_geometry x nodesB fB in
  vmag (vminus (f_c A) (f_c B)) <= tol /\ vdot (f_n A) (f_n B) <= -1 + tol.

(** quadrilaterals p0 p1 p2 p3 that are planar and convex: all corners turn the same way around the same unit normal *)
Definition planar_convex (p : nat -> vec) : Prop :=
  exists (N : vec) (c : nat -> R), unit_vec N /\ (forall i, (i < 4)%nat -> 0 <= c i) /\
    forall i, (i < 4)%nat ->
      same3 (vcross (vminus (p (Nat.modulo (i + 1) 4)) (p i)) (vminus (p (Nat.modulo (i + 3) 4)) (p i))) (vscale (c i) N).
(** area of such a quadrilateral: half the cross product of its diagonals *)
Definition quad_area (p : nat -> vec) : R := vmag (vcross (vminus (p 2%nat) (p 0%nat)) (vminus (p 3%nat) (p 1%nat))) / 2.

(** what the last stage of every cycle saw *)
Definition last_seen (N : nat) (cyc : R * (nat -> opening)) : opening := snd cyc (N - 1)%nat.

(** the openings seen by successive cycles join up: each begins where the previous prediction ended; [o] before, result after *)
Fixpoint joined (N : nat) (un ut : R) (cycles : list (R * (nat -> opening))) (un' ut' : R) : Prop :=
  match cycles with
  | [] => un = un' /\ ut = ut'
  | c :: l => un_t (last_seen N c) = un /\ ut_t (last_seen N c) = ut /\
              joined N (un_tdt (last_seen N c)) (ut_tdt (last_seen N c)) l un' ut'
  end.

(** the openings the code sees in one cycle when the two nodes separate along the normal at a constant rate w: at stage k the nodes have
    been moved to time t + dt/(N-k+1) by the previous stage (at stage 0 they are where they were at time t), and the
    prediction adds dt/(N-k) (sgh_execute.cpp:285-293, position_sgh.cpp) *)
Definition steady_opening (N : nat) (w t dt : R) (k : nat) : opening :=
  let s := if Nat.eqb k 0 then t else t + dt / (INR N - INR k + 1) in
  mkOpening (w * s) 0 (w * (s + dt / (INR N - INR k))) 0.
Fixpoint steady_cycles (N : nat) (w t : R) (dts : list R) : list (R * (nat -> opening)) :=
  match dts with
  | [] => []
  | dt :: l => (dt, steady_opening N w t dt) :: steady_cycles N w (t + dt) l
  end.

(** parameters that make sense *)
Definition sane (P : czpar) : Prop := 0 <= a1 P /\ 0 < u_n_star P /\ 0 < u_t_star P.
