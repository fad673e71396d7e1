(** The quadrature rules: what the tables integrate, and how closely. *)
From Coq Require Import Reals List Arith ZArith Lia Lra Psatz.
From Verif Require Import BaseArr BaseReal RefSpec RefTables RefModel RefLag.
Import ListNotations.
Open Scope R_scope.

(** * Integrals *)
Lemma integral_unique f a b v w : a < b -> integral f a b v -> integral f a b w -> v = w.
Proof.
  intros Hab (F & HF & EF) (G & HG & EG).
  destruct (MVT_cor2 (fun x => F x - G x) (fun x => f x - f x) a b Hab) as (c & E & _).
  - intros c _. apply derivable_pt_lim_minus; [apply HF|apply HG].
  - rewrite EF, EG. lra.
Qed.

Definition moment (d : nat) : R := if Nat.even d then 2 / INR (S d) else 0.

Lemma pow_minus_one d : (-1) ^ d = if Nat.even d then 1 else -1.
Proof.
  induction d as [|d IH]; [reflexivity|]. cbn [pow]. rewrite IH, Nat.even_succ, <- Nat.negb_even.
  destruct (Nat.even d); cbn; ring.
Qed.

Lemma derive_power d x : derivable_pt_lim (fun x => x ^ S d / INR (S d)) x (x ^ d).
Proof.
  assert (INR (S d) <> 0) by (apply not_0_INR; lia).
  replace (x ^ d) with ((INR (S d) * x ^ pred (S d)) * / INR (S d) + x ^ S d * 0).
  2:{ cbn [pred]. field. assumption. }
  apply (derivable_pt_lim_mult (fun x => x ^ S d) (fun _ => / INR (S d))).
  - apply derivable_pt_lim_pow.
  - apply derivable_pt_lim_const.
Qed.

Lemma integral_power d : integral (fun x => x ^ d) (-1) 1 (moment d).
Proof.
  exists (fun x => x ^ S d / INR (S d)). split; [intros x; apply derive_power|].
  rewrite pow1, pow_minus_one, Nat.even_succ, <- Nat.negb_even. unfold moment.
  assert (INR (S d) <> 0) by (apply not_0_INR; lia).
  destruct (Nat.even d); cbn [negb]; field; assumption.
Qed.

Lemma integral_scal k f a b v : integral f a b v -> integral (fun x => k * f x) a b (k * v).
Proof.
  intros (F & H & E). exists (fun x => k * F x). split; [|rewrite E; ring].
  intros x. replace (k * f x) with (0 * F x + k * f x) by ring.
  apply (derivable_pt_lim_mult (fun _ => k) F); [apply derivable_pt_lim_const|apply H].
Qed.

Lemma integral_ext f g a b v : (forall x, f x = g x) -> integral f a b v -> integral g a b v.
Proof.
  intros E (F & H & Ev). exists F. split; [intros x; rewrite <- E; apply H|exact Ev].
Qed.

Lemma integral_suml {A} (f : A -> R -> R) (v : A -> R) l a b :
  (forall t, In t l -> integral (f t) a b (v t)) ->
  integral (fun x => suml (fun t => f t x) l) a b (suml v l).
Proof.
  induction l as [|t l IH]; intros H.
  - exists (fun _ => 0). split; [intros x; apply derivable_pt_lim_const|cbn; ring].
  - destruct IH as (F & HF & EF); [intros s Hs; apply H; right; exact Hs|].
    destruct (H t (or_introl eq_refl)) as (G & HG & EG).
    exists (fun x => G x + F x). split.
    + intros x. rewrite suml_cons. apply derivable_pt_lim_plus; [apply HG|apply HF].
    + rewrite suml_cons, EF, EG. ring.
Qed.

(** * Polynomials as sums of powers *)
Lemma peval_powers c x : peval c x = suml (fun d => nth d c 0 * x ^ d) (seq 0 (length c)).
Proof.
  induction c as [|a c IH]; [reflexivity|]. cbn [peval length seq]. rewrite suml_cons.
  cbn [nth pow]. rewrite IH, <- suml_scal, <- seq_shift, suml_map.
  replace (a * 1) with a by ring. f_equal. apply suml_ext. intros d _. cbn [nth pow]. ring.
Qed.

Lemma csize_nth c : csize c = suml (fun d => Rabs (nth d c 0)) (seq 0 (length c)).
Proof.
  unfold csize. induction c as [|a c IH]; [reflexivity|]. cbn [length seq].
  rewrite !suml_cons. cbn [nth]. rewrite <- seq_shift, suml_map, IH. reflexivity.
Qed.

Lemma Rabs_suml {A} (f : A -> R) l : Rabs (suml f l) <= suml (fun a => Rabs (f a)) l.
Proof.
  induction l as [|a l IH]; [cbn; rewrite Rabs_R0; lra|].
  rewrite !suml_cons. eapply Rle_trans; [apply Rabs_triang|]. lra.
Qed.

(** * Rules *)
Definition quad (xs ws : list R) (f : R -> R) : R :=
  suml (fun xw => snd xw * f (fst xw)) (combine xs ws).

Definition accurate (eps : R) (D : nat) (xs ws : list R) : Prop :=
  forall d, (d < D)%nat -> Rabs (quad xs ws (fun x => x ^ d) - moment d) <= eps.

Lemma quad_suml {A} xs ws (f : A -> R -> R) l :
  quad xs ws (fun x => suml (fun t => f t x) l) = suml (fun t => quad xs ws (f t)) l.
Proof.
  unfold quad. rewrite suml_exchange. apply suml_ext. intros xw _. rewrite <- suml_scal. reflexivity.
Qed.

Lemma quad_scal xs ws k f : quad xs ws (fun x => k * f x) = k * quad xs ws f.
Proof. unfold quad. rewrite <- suml_scal. apply suml_ext. intros; ring. Qed.

Lemma quad_ext xs ws f g : (forall x, f x = g x) -> quad xs ws f = quad xs ws g.
Proof. intros E. apply suml_ext. intros; rewrite E; reflexivity. Qed.

Lemma accurate_poly eps D xs ws c v : accurate eps D xs ws -> (length c <= D)%nat ->
  integral (peval c) (-1) 1 v -> Rabs (quad xs ws (peval c) - v) <= eps * csize c.
Proof.
  intros H L Hv.
  assert (E : v = suml (fun d => nth d c 0 * moment d) (seq 0 (length c))).
  { apply (integral_unique (peval c) (-1) 1); [lra|exact Hv|].
    apply (integral_ext (fun x => suml (fun d => nth d c 0 * x ^ d) (seq 0 (length c)))).
    - intros x; symmetry; apply peval_powers.
    - apply (integral_suml (fun d x => nth d c 0 * x ^ d)). intros d _. apply integral_scal, integral_power. }
  rewrite E, (quad_ext xs ws (peval c) _ (peval_powers c)), quad_suml, csize_nth, <- suml_minus.
  eapply Rle_trans; [apply Rabs_suml|]. rewrite <- suml_scal. apply suml_le. intros d Hd.
  apply in_seq in Hd. rewrite quad_scal, <- Rmult_minus_distr_l, Rabs_mult, (Rmult_comm eps).
  apply Rmult_le_compat_l; [apply Rabs_pos|]. apply H. lia.
Qed.

(** * Rules of decimal literals *)
Open Scope Z_scope.
Definition scale : Z := 10 ^ 33.
Fixpoint dot (ws a : list Z) : Z :=
  match ws, a with w :: ws', y :: a' => w * y + dot ws' a' | _, _ => 0 end.
Fixpoint next_powers (a xs : list Z) : list Z :=
  match a, xs with y :: a', x :: xs' => y * x / scale :: next_powers a' xs' | _, _ => [] end.

(** [a] holds the powers x^d to 33 places.  The d-th moment of the rule is that
    of the integral up to 1/E, the rounding of the powers included. *)
Definition moment_ok (E : Z) (ws a : list Z) (sw : Z) (d : nat) : bool :=
  E * (Z.abs (Z.of_nat (S d) * dot ws a - (if Nat.even d then 2 * (scale * scale) else 0))
       + Z.of_nat (S d) * (Z.of_nat d * sw))
  <=? Z.of_nat (S d) * (scale * scale).

Fixpoint moments_ok (E : Z) (xs ws a : list Z) (sw : Z) (d D : nat) : bool :=
  match D with
  | O => true
  | S D' => moment_ok E ws a sw d && moments_ok E xs ws (next_powers a xs) sw (S d) D'
  end.

Fixpoint increasing_z (l : list Z) : bool :=
  match l with
  | a :: ((b :: _) as r) => (a <? b) && increasing_z r
  | _ => true
  end.

Definition rule_ok (E : Z) (D : nat) (n : nat) (txs tws : option (list Z)) : bool :=
  match txs, tws with
  | Some xs, Some ws =>
      (length xs =? n)%nat && (length ws =? n)%nat && moments_ok E xs ws (map (fun _ => scale) xs) (fold_right Z.add 0 ws) 0 D
      && increasing_z xs && forallb (fun x => (- scale <=? x) && (x <=? scale)) xs
      && forallb (fun w => 0 <? w) ws
      && (if list_eq_dec Z.eq_dec (rev xs) (map Z.opp xs) then true else false)
      && (if list_eq_dec Z.eq_dec (rev ws) ws then true else false)
  | _, _ => false
  end.
Close Scope Z_scope.

Lemma scale_pos : 0 < IZR scale.
Proof. apply IZR_lt. reflexivity. Qed.

Lemma dec_scale m : dec m = IZR m / IZR scale.
Proof. reflexivity. Qed.

Global Opaque scale.

(** How far the integers [a] are from the powers. *)
Definition near (d : nat) (x a : Z) : Prop := Rabs (IZR a / IZR scale - dec x ^ d) <= INR d / IZR scale.

Lemma near_next d x a : -1 <= dec x <= 1 -> near d x a -> near (S d) x (a * x / scale)%Z.
Proof.
  intros Hx H. unfold near in *. pose proof scale_pos as HS.
  assert (HZ : (0 < scale)%Z) by (apply lt_IZR; exact HS).
  pose proof (Z.div_mod (a * x) scale ltac:(lia)) as Hd.
  pose proof (Z.mod_pos_bound (a * x) scale HZ) as [Hm1 Hm2].
  apply (f_equal IZR) in Hd. rewrite plus_IZR, !mult_IZR in Hd.
  apply IZR_le in Hm1. apply IZR_lt in Hm2.
  set (q := IZR (a * x / scale)) in *. set (r := IZR ((a * x) mod scale)) in *.
  assert (Ex : IZR x = dec x * IZR scale) by (rewrite dec_scale; field; lra).
  assert (Eq : q / IZR scale - dec x ^ S d
               = dec x * (IZR a / IZR scale - dec x ^ d) + - (r / IZR scale) * / IZR scale).
  { cbn [pow]. replace q with ((IZR a * IZR x - r) / IZR scale) by (rewrite Hd; field; lra).
    rewrite Ex. field. lra. }
  rewrite Eq, S_INR. eapply Rle_trans; [apply Rabs_triang|].
  rewrite Rdiv_plus_distr. apply Rplus_le_compat.
  - rewrite Rabs_mult. assert (Rabs (dec x) <= 1) by (apply Rabs_le; lra).
    pose proof (Rabs_pos (IZR a / IZR scale - dec x ^ d)). pose proof (Rabs_pos (dec x)). nra.
  - rewrite Rabs_mult, Rabs_Ropp, (Rabs_pos_eq (/ _)) by (left; apply Rinv_0_lt_compat; exact HS).
    unfold Rdiv at 2. apply Rmult_le_compat_r; [left; apply Rinv_0_lt_compat; exact HS|].
    unfold Rdiv. rewrite Rabs_pos_eq.
    + apply (Rmult_le_reg_r (IZR scale)); [exact HS|]. rewrite Rmult_assoc, Rinv_l by lra. lra.
    + apply Rmult_le_pos; [exact Hm1|left; apply Rinv_0_lt_compat; exact HS].
Qed.

Lemma quad_near d xs ws a : Forall2 (near d) xs a -> (forall w, In w ws -> (0 < w)%Z) -> length ws = length xs ->
  Rabs (quad (map dec xs) (map dec ws) (fun x => x ^ d) - IZR (dot ws a) / (IZR scale * IZR scale))
  <= INR d * IZR (fold_right Z.add 0%Z ws) / (IZR scale * IZR scale).
Proof.
  pose proof scale_pos as HS.
  intros H. revert ws. induction H as [|x y xs a Hxy H IH]; intros [|w ws] Hw L; try discriminate.
  - cbn. unfold Rdiv. rewrite !Rmult_0_l, Rmult_0_r, Rmult_0_l, Rminus_0_r, Rabs_R0. lra.
  - cbn [map]. unfold quad. cbn [combine]. rewrite suml_cons. fold (quad (map dec xs) (map dec ws) (fun x => x ^ d)).
    cbn [fst snd dot fold_right]. rewrite !plus_IZR, mult_IZR.
    assert (Hw0 : 0 < IZR w) by (apply IZR_lt, Hw; left; reflexivity).
    specialize (IH ws (fun v Hv => Hw v (or_intror Hv)) ltac:(cbn in L; lia)).
    match goal with |- Rabs ?e <= _ => replace e with
      (- (IZR w / IZR scale) * (IZR y / IZR scale - dec x ^ d) +
       (quad (map dec xs) (map dec ws) (fun x => x ^ d) - IZR (dot ws a) / (IZR scale * IZR scale)))
      by (rewrite (dec_scale w); field; lra) end.
    eapply Rle_trans; [apply Rabs_triang|].
    replace (INR d * (IZR w + IZR (fold_right Z.add 0%Z ws)) / (IZR scale * IZR scale))
      with (IZR w / IZR scale * (INR d / IZR scale) + INR d * IZR (fold_right Z.add 0%Z ws) / (IZR scale * IZR scale))
      by (field; lra).
    apply Rplus_le_compat; [|exact IH].
    assert (0 < IZR w / IZR scale) by (apply Rmult_lt_0_compat; [exact Hw0|apply Rinv_0_lt_compat; exact HS]).
    rewrite Rabs_mult, Rabs_Ropp, Rabs_pos_eq by lra. apply Rmult_le_compat_l; [lra|exact Hxy].
Qed.

Lemma moment_ok_sound E xs ws a d : (0 < E)%Z -> Forall2 (near d) xs a ->
  (forall w, In w ws -> (0 < w)%Z) -> length ws = length xs ->
  moment_ok E ws a (fold_right Z.add 0%Z ws) d = true ->
  Rabs (quad (map dec xs) (map dec ws) (fun x => x ^ d) - moment d) <= / IZR E.
Proof.
  intros HE HN Hw L H. unfold moment_ok in H. apply Z.leb_le, IZR_le in H.
  rewrite !mult_IZR, plus_IZR, abs_IZR, minus_IZR, !mult_IZR in H.
  rewrite <- !INR_IZR_INZ in H.
  pose proof (quad_near d xs ws a HN Hw L) as Q.
  pose proof scale_pos as HS. apply IZR_lt in HE.
  assert (Hn : 0 < INR (S d)) by (apply lt_0_INR; lia).
  set (s := IZR (dot ws a)) in *. set (p := IZR scale * IZR scale) in *. set (n := INR (S d)) in *.
  set (t := INR d * IZR (fold_right Z.add 0%Z ws)) in *.
  assert (HP : 0 < p) by (unfold p; nra).
  assert (Em : s / p - moment d = (n * s - IZR (if Nat.even d then 2 * (scale * scale) else 0)) / (n * p)).
  { unfold moment. fold n. destruct (Nat.even d).
    - rewrite !mult_IZR. fold p. field. lra.
    - field. lra. }
  set (u := n * s - IZR (if Nat.even d then 2 * (scale * scale) else 0)) in *.
  assert (B : Rabs (s / p - moment d) = Rabs u / (n * p)).
  { rewrite Em. unfold Rdiv. rewrite Rabs_mult, Rabs_inv, (Rabs_pos_eq (n * p)) by nra. reflexivity. }
  replace (quad (map dec xs) (map dec ws) (fun x => x ^ d) - moment d)
    with (quad (map dec xs) (map dec ws) (fun x => x ^ d) - s / p + (s / p - moment d)) by ring.
  eapply Rle_trans; [apply Rabs_triang|]. rewrite B.
  eapply Rle_trans; [apply Rplus_le_compat_r, Q|].
  replace (t / p + Rabs u / (n * p)) with ((Rabs u + n * t) / (n * p)) by (field; lra).
  apply (Rmult_le_reg_r (n * p)); [nra|]. apply (Rmult_le_reg_l (IZR E)); [exact HE|].
  replace (IZR E * (/ IZR E * (n * p))) with (n * p) by (field; lra).
  replace (IZR E * ((Rabs u + n * t) / (n * p) * (n * p))) with (IZR E * (Rabs u + n * t)) by (field; lra).
  exact H.
Qed.

Lemma Forall2_next d xs a : (forall x, In x xs -> -1 <= dec x <= 1) -> Forall2 (near d) xs a ->
  Forall2 (near (S d)) xs (next_powers a xs).
Proof.
  intros Hx H. induction H as [|x y xs a Hxy H IH]; constructor.
  - apply near_next; [apply Hx; left; reflexivity|exact Hxy].
  - apply IH. intros z Hz; apply Hx; right; exact Hz.
Qed.

Lemma moments_ok_sound E xs ws D : (0 < E)%Z -> (forall x, In x xs -> -1 <= dec x <= 1) ->
  (forall w, In w ws -> (0 < w)%Z) -> length ws = length xs ->
  forall a d, Forall2 (near d) xs a -> moments_ok E xs ws a (fold_right Z.add 0%Z ws) d D = true ->
  forall e, (d <= e < d + D)%nat ->
  Rabs (quad (map dec xs) (map dec ws) (fun x => x ^ e) - moment e) <= / IZR E.
Proof.
  intros HE Hx Hw L. induction D as [|D IH]; intros a d HN H e He; [lia|].
  cbn [moments_ok] in H. apply andb_prop in H as [H1 H2].
  destruct (Nat.eq_dec e d) as [->|N].
  - apply moment_ok_sound with (a := a); assumption.
  - apply (IH (next_powers a xs) (S d)); [apply Forall2_next; assumption|exact H2|lia].
Qed.

Lemma near_zero xs : Forall2 (near 0) xs (map (fun _ => scale) xs).
Proof.
  pose proof scale_pos. induction xs as [|x xs IH]; constructor; [|exact IH].
  unfold near. cbn [pow INR]. replace (IZR scale / IZR scale - 1) with 0 by (field; lra).
  rewrite Rabs_R0. unfold Rdiv. lra.
Qed.

(** What a rule has to be. *)
Fixpoint increasing (l : list R) : Prop :=
  match l with
  | a :: ((b :: _) as r) => a < b /\ increasing r
  | _ => True
  end.

Definition sound (eps : R) (D n : nat) (xs ws : list R) : Prop :=
  length xs = n /\ length ws = n /\ accurate eps D xs ws /\ increasing xs /\
  (forall x, In x xs -> -1 <= x <= 1) /\ (forall w, In w ws -> 0 < w) /\
  rev xs = map Ropp xs /\ rev ws = ws.

Lemma increasing_dec l : increasing_z l = true -> increasing (map dec l).
Proof.
  induction l as [|a [|b l] IH]; intros H; try exact I.
  cbn [increasing_z] in H. apply andb_prop in H as [H1 H2].
  cbn [map increasing]. split; [|apply IH; exact H2].
  apply Z.ltb_lt, IZR_lt in H1. rewrite !dec_scale. pose proof scale_pos.
  apply Rmult_lt_compat_r; [apply Rinv_0_lt_compat; assumption|exact H1].
Qed.

Lemma rule_ok_sound E D n txs tws : (0 < E)%Z -> rule_ok E D n txs tws = true ->
  exists xs ws, option_map (map dec) txs = Some xs /\ option_map (map dec) tws = Some ws /\
    sound (/ IZR E) D n xs ws.
Proof.
  intros HE. destruct txs as [xs|], tws as [ws|]; cbn [rule_ok]; try discriminate.
  intros H. repeat (apply andb_prop in H as [H ?]).
  destruct (list_eq_dec Z.eq_dec (rev xs) (map Z.opp xs)) as [Ex|]; [|discriminate].
  destruct (list_eq_dec Z.eq_dec (rev ws) ws) as [Ew|]; [|discriminate].
  pose proof scale_pos as HS.
  assert (Hx : forall x, In x xs -> -1 <= dec x <= 1).
  { intros m Hm.
    match goal with Hf : forallb (fun x => _ && _) _ = true |- _ =>
      rewrite forallb_forall in Hf; specialize (Hf m Hm); apply andb_prop in Hf as [Ha Hb] end.
    apply Z.leb_le, IZR_le in Ha. apply Z.leb_le, IZR_le in Hb. rewrite opp_IZR in Ha.
    rewrite dec_scale. unfold Rdiv. split; apply (Rmult_le_reg_r (IZR scale)); try exact HS;
      rewrite Rmult_assoc, Rinv_l by lra; lra. }
  assert (Hw : forall w, In w ws -> (0 < w)%Z).
  { intros m Hm.
    match goal with Hf : forallb (fun w => (0 <? w)%Z) _ = true |- _ =>
      rewrite forallb_forall in Hf; specialize (Hf m Hm); apply Z.ltb_lt; exact Hf end. }
  assert (L1 : length xs = n) by (apply Nat.eqb_eq; assumption).
  assert (L2 : length ws = n) by (apply Nat.eqb_eq; assumption).
  exists (map dec xs), (map dec ws). split; [reflexivity|]. split; [reflexivity|].
  unfold sound. rewrite !map_length.
  split; [exact L1|]. split; [exact L2|].
  split.
  { intros d Hd. apply (moments_ok_sound E xs ws D HE Hx Hw ltac:(lia) (map (fun _ => scale) xs) 0%nat (near_zero xs));
      [assumption|lia]. }
  split; [apply increasing_dec; assumption|].
  split.
  { intros x Hin. apply in_map_iff in Hin as (m & <- & Hm). apply Hx, Hm. }
  split.
  { intros w Hin. apply in_map_iff in Hin as (m & <- & Hm). rewrite dec_scale.
    apply Rmult_lt_0_compat; [apply IZR_lt, Hw, Hm|apply Rinv_0_lt_compat; exact HS]. }
  split.
  - rewrite <- map_rev, Ex, !map_map. apply map_ext. intros m. rewrite !dec_scale, opp_IZR. unfold Rdiv; ring.
  - rewrite <- map_rev, Ew. reflexivity.
Qed.

Definition E29 : Z := 10 ^ 29.
Transparent scale.

Lemma legendre_check : forallb (fun n => rule_ok E29 (2 * n) n (legendre_nodes_z n) (legendre_weights_z n)) (seq 1 19) = true.
Proof. vm_compute. reflexivity. Qed.

(** The error of the Lobatto rules of eight and twelve points is larger. *)
Definition lobatto_inverse (n : nat) : Z :=
  match n with 8%nat => 10 ^ 23 | 12%nat => 10 ^ 14 | _ => E29 end.

Lemma lobatto_check : forallb (fun n => rule_ok (lobatto_inverse n) (2 * n - 2) n (lobatto_nodes_z n) (lobatto_weights_z n)) (seq 7 14) = true.
Proof. vm_compute. reflexivity. Qed.
Global Opaque scale.

Lemma legendre_sound n : (1 <= n <= 19)%nat ->
  exists xs ws, legendre_nodes n = Some xs /\ legendre_weights n = Some ws /\ sound (/ IZR E29) (2 * n) n xs ws.
Proof.
  intros Hn. unfold legendre_nodes, legendre_weights. apply rule_ok_sound; [reflexivity|].
  pose proof legendre_check as H. rewrite forallb_forall in H. apply H. apply in_seq. lia.
Qed.

Lemma lobatto_inverse_pos n : (0 < lobatto_inverse n)%Z.
Proof. unfold lobatto_inverse. do 13 (destruct n as [|n]; [reflexivity|]). reflexivity. Qed.

Lemma lobatto_table_sound n : (7 <= n <= 20)%nat ->
  exists xs ws, lobatto_nodes n = Some xs /\ lobatto_weights n = Some ws /\
    sound (/ IZR (lobatto_inverse n)) (2 * n - 2) n xs ws.
Proof.
  intros Hn.
  assert (E1 : lobatto_nodes n = option_map (map dec) (lobatto_nodes_z n)) by (do 7 (destruct n as [|n]; [lia|]); reflexivity).
  assert (E2 : lobatto_weights n = option_map (map dec) (lobatto_weights_z n)) by (do 7 (destruct n as [|n]; [lia|]); reflexivity).
  rewrite E1, E2. apply rule_ok_sound; [apply lobatto_inverse_pos|].
  pose proof lobatto_check as H. rewrite forallb_forall in H. apply H. apply in_seq. lia.
Qed.

(** * The Lobatto rules of up to six points are exact *)
Lemma sqrt_sq a : 0 <= a -> sqrt a * sqrt a = a.
Proof. apply sqrt_sqrt. Qed.

Lemma quad_cons x xs w ws f : quad (x :: xs) (w :: ws) f = w * f x + quad xs ws f.
Proof. reflexivity. Qed.
Lemma quad_nil f : quad [] [] f = 0.
Proof. reflexivity. Qed.

Lemma moment_0 : moment 0 = 2. Proof. unfold moment. cbn. field. Qed.
Lemma moment_1 : moment 1 = 0. Proof. reflexivity. Qed.
Lemma moment_2 : moment 2 = 2 / 3. Proof. unfold moment. cbn. field. Qed.
Lemma moment_3 : moment 3 = 0. Proof. reflexivity. Qed.
Lemma moment_4 : moment 4 = 2 / 5. Proof. unfold moment. cbn. field. Qed.
Lemma moment_5 : moment 5 = 0. Proof. reflexivity. Qed.
Lemma moment_6 : moment 6 = 2 / 7. Proof. unfold moment. cbn. field. Qed.
Lemma moment_7 : moment 7 = 0. Proof. reflexivity. Qed.
Lemma moment_8 : moment 8 = 2 / 9. Proof. unfold moment. cbn. field. Qed.
Lemma moment_9 : moment 9 = 0. Proof. reflexivity. Qed.

Ltac finish_moment tac :=
  match goal with |- Rabs ?e <= 0 => replace e with 0; [rewrite Rabs_R0; lra|] end;
  rewrite !quad_cons, quad_nil;
  rewrite ?moment_0, ?moment_1, ?moment_2, ?moment_3, ?moment_4, ?moment_5, ?moment_6, ?moment_7, ?moment_8, ?moment_9;
  cbn [pow]; tac.
Ltac lists := cbn [rev app map]; repeat (apply f_equal2; [lra|]); reflexivity.
Ltac members := cbn [In]; intros x Hx; repeat destruct Hx as [<-|Hx]; try contradiction; lra.

Lemma exact_1 : sound 0 2 1 [0] [2].
Proof.
  unfold sound. split; [reflexivity|]. split; [reflexivity|]. split.
  { intros d Hd. do 2 (destruct d as [|d]; [finish_moment ltac:(field)|]); lia. }
  split; [cbn; lra|]. split; [members|]. split; [members|]. split; lists.
Qed.

Lemma exact_2 : sound 0 2 2 [-1; 1] [1; 1].
Proof.
  unfold sound. split; [reflexivity|]. split; [reflexivity|]. split.
  { intros d Hd. do 2 (destruct d as [|d]; [finish_moment ltac:(field)|]); lia. }
  split; [cbn; lra|]. split; [members|]. split; [members|]. split; lists.
Qed.

Lemma exact_3 : sound 0 4 3 [-1; 0; 1] [1 / 3; 4 / 3; 1 / 3].
Proof.
  unfold sound. split; [reflexivity|]. split; [reflexivity|]. split.
  { intros d Hd. do 4 (destruct d as [|d]; [finish_moment ltac:(field)|]); lia. }
  split; [cbn; lra|]. split; [members|]. split; [members|]. split; lists.
Qed.

Lemma exact_4 : sound 0 6 4 [-1; - (1 / 5) * sqrt 5; 1 / 5 * sqrt 5; 1] [1 / 6; 5 / 6; 5 / 6; 1 / 6].
Proof.
  pose proof (sqrt_sq 5 ltac:(lra)) as Hs. pose proof (sqrt_pos 5) as Hp. set (s := sqrt 5) in *.
  assert (H1 : 2 < s < 3) by nra.
  unfold sound. split; [reflexivity|]. split; [reflexivity|]. split.
  { intros d Hd. do 6 (destruct d as [|d]; [finish_moment ltac:(field [Hs])|]); lia. }
  split; [cbn; lra|]. split; [members|]. split; [members|]. split; lists.
Qed.

Lemma exact_5 : sound 0 8 5 [-1; - (1 / 7) * sqrt 21; 0; 1 / 7 * sqrt 21; 1] [1 / 10; 49 / 90; 32 / 45; 49 / 90; 1 / 10].
Proof.
  pose proof (sqrt_sq 21 ltac:(lra)) as Hs. pose proof (sqrt_pos 21) as Hp. set (s := sqrt 21) in *.
  assert (H1 : 4 < s < 5) by nra.
  unfold sound. split; [reflexivity|]. split; [reflexivity|]. split.
  { intros d Hd. do 8 (destruct d as [|d]; [finish_moment ltac:(field [Hs])|]); lia. }
  split; [cbn; lra|]. split; [members|]. split; [members|]. split; lists.
Qed.

Lemma exact_6 : sound 0 10 6
  [-1; - sqrt (1 / 21 * (7 + 2 * sqrt 7)); - sqrt (1 / 21 * (7 - 2 * sqrt 7));
   sqrt (1 / 21 * (7 - 2 * sqrt 7)); sqrt (1 / 21 * (7 + 2 * sqrt 7)); 1]
  [1 / 15; 1 / 30 * (14 - sqrt 7); 1 / 30 * (14 + sqrt 7); 1 / 30 * (14 + sqrt 7); 1 / 30 * (14 - sqrt 7); 1 / 15].
Proof.
  pose proof (sqrt_sq 7 ltac:(lra)) as Hs. pose proof (sqrt_pos 7) as Hp. set (s := sqrt 7) in *.
  assert (H1 : 2 < s < 3) by nra.
  pose proof (sqrt_sq (1 / 21 * (7 + 2 * s)) ltac:(lra)) as Ha. pose proof (sqrt_pos (1 / 21 * (7 + 2 * s))) as Hpa.
  pose proof (sqrt_sq (1 / 21 * (7 - 2 * s)) ltac:(lra)) as Hb. pose proof (sqrt_pos (1 / 21 * (7 - 2 * s))) as Hpb.
  set (a := sqrt (1 / 21 * (7 + 2 * s))) in *. set (b := sqrt (1 / 21 * (7 - 2 * s))) in *.
  assert (0 < b) by nra. assert (b < a) by nra. assert (a < 1) by nra.
  unfold sound. split; [reflexivity|]. split; [reflexivity|]. split.
  { intros d Hd.
    assert (E2 : forall k, a ^ (2 * k) = (1 / 21 * (7 + 2 * s)) ^ k) by (intros k; rewrite pow_mult; f_equal; lra).
    assert (F2 : forall k, b ^ (2 * k) = (1 / 21 * (7 - 2 * s)) ^ k) by (intros k; rewrite pow_mult; f_equal; lra).
    pose proof (E2 2%nat) as E4. pose proof (E2 3%nat) as E6. pose proof (E2 4%nat) as E8.
    pose proof (F2 2%nat) as F4. pose proof (F2 3%nat) as F6. pose proof (F2 4%nat) as F8.
    specialize (E2 1%nat). specialize (F2 1%nat). cbn [Nat.mul Nat.add] in *.
    do 10 (destruct d as [|d];
      [match goal with |- Rabs ?e <= 0 => replace e with 0; [rewrite Rabs_R0; lra|] end;
       rewrite !quad_cons, quad_nil;
       rewrite ?moment_0, ?moment_1, ?moment_2, ?moment_3, ?moment_4, ?moment_5, ?moment_6, ?moment_7, ?moment_8, ?moment_9;
       try (cbn [pow]; field);
       match goal with |- context [(- a) ^ ?k] => replace ((- a) ^ k) with (a ^ k) by (cbn [pow]; ring);
         replace ((- b) ^ k) with (b ^ k) by (cbn [pow]; ring) end;
       rewrite ?E2, ?E4, ?E6, ?E8, ?F2, ?F4, ?F6, ?F8; cbn [pow]; field [Hs]|]); lia. }
  split; [cbn; lra|]. split; [members|]. split; [members|]. split; lists.
Qed.
