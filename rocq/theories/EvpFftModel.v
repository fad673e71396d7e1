(* The correction of the displacement gradients of the whole grid: forward transform,
   Green's operator at each frequency, backward transform. *)
From Coq Require Import Reals List Arith ZArith.
From Verif Require Import BaseReal LinModel EvpModel EvpFlowModel.
Import ListNotations.
Local Open Scope R_scope.

(* Points and frequencies are numbered from zero in each direction. *)
Definition site : Type := (nat * nat * nat)%type.
Definition sites (n1 n2 n3 : nat) : list site :=
  flat_map (fun z => flat_map (fun y => map (fun x => (x, y, z)) (seq 0 n1)) (seq 0 n2)) (seq 0 n3).
Definition phase (n1 n2 n3 : nat) (k p : site) : R :=
  let '(k1, k2, k3) := k in let '(p1, p2, p3) := p in
  2 * PI * (INR (k1 * p1) / INR n1 + INR (k2 * p2) / INR n2 + INR (k3 * p3) / INR n3).

(* forward_fft and backward_fft (forward_backward_fft.cpp:5-86) call the library heFFTe
   component by component; what the library computes is written down here: the discrete
   Fourier transform, and its inverse with the factor 1/N (scale::full, heffte_fft.h:144).  Simplified:
   the library keeps half of the frequencies of a real field, the others being
   conjugate; here all are kept and the real part is taken. *)
Definition fft_re (n1 n2 n3 : nat) (f : site -> R) (k : site) : R := suml (fun p => f p * cos (phase n1 n2 n3 k p)) (sites n1 n2 n3).
Definition fft_im (n1 n2 n3 : nat) (f : site -> R) (k : site) : R := suml (fun p => - (f p * sin (phase n1 n2 n3 k p))) (sites n1 n2 n3).
Definition ifft (n1 n2 n3 : nat) (re im : site -> R) (p : site) : R :=
  / (INR n1 * INR n2 * INR n3) * suml (fun k => re k * cos (phase n1 n2 n3 k p) - im k * sin (phase n1 n2 n3 k p)) (sites n1 n2 n3).

(* The frequency of a site (init_xk_gb, evpfft.cpp:170-202) and the tests of
   inverse_the_greens (44-46, 84-86; indices there start at 1, all processes together). *)
Definition site_frequency (delt : T1) (n1 n2 n3 : nat) (k : site) : T1 :=
  let '(k1, k2, k3) := k in fun i =>
  match i with
  | 1 => frequency (delt 1%nat) (Z.of_nat n1) 0 (Z.of_nat k1)
  | 2 => frequency (delt 2%nat) (Z.of_nat n2) 0 (Z.of_nat k2)
  | 3 => frequency (delt 3%nat) (Z.of_nat n3) 0 (Z.of_nat k3)
  | _ => 0%R
  end%nat.
Definition site_nyquist (n1 n2 n3 : nat) (k : site) : bool :=
  let '(k1, k2, k3) := k in nyquist (Z.of_nat n1) (Z.of_nat n2) (Z.of_nat n3) (Z.of_nat k1 + 1) (Z.of_nat k2 + 1) (Z.of_nat k3 + 1).
Definition site_zero (k : site) : bool := let '(k1, k2, k3) := k in (Nat.eqb (k1 + 1) 1 && Nat.eqb (k2 + 1) 1 && Nat.eqb (k3 + 1) 1)%bool.

(* evpfft.cpp:358-378: from the stress of every point to the correction of its
   displacement gradient. *)
Definition field_correction (c0 s0 : T4) (delt : T1) (n1 n2 n3 : nat) (sg : site -> T2) : site -> T2 := fun p i j =>
  let at_k (part : nat -> nat -> nat -> (site -> R) -> site -> R) (k : site) :=
    inverse_the_greens c0 s0 (site_nyquist n1 n2 n3 k) (site_zero k) (site_frequency delt n1 n2 n3 k) (fun a b => part n1 n2 n3 (fun q => sg q a b) k) i j in
  ifft n1 n2 n3 (at_k fft_re) (at_k fft_im) p.

(* The same on the lists of EvpStepModel: all points in one list, x running fastest. *)
Definition place (n1 n2 : nat) (p : site) : nat := let '(x, y, z) := p in (x + n1 * (y + n2 * z))%nat.
Definition spectral_work (c0 s0 : T4) (delt : T1) (n1 n2 n3 : nat) (sg : list T2) : list T2 :=
  map (field_correction c0 s0 delt n1 n2 n3 (fun p => nth (place n1 n2 p) sg (fun _ _ => 0))) (sites n1 n2 n3).
