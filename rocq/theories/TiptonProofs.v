From Verif Require Import BaseReal BaseArr SghModel TiptonModel TiptonSpec.
From Coq Require Import Reals Lra Permutation.
Open Scope R_scope.

Definition flat (nmats : nat) (pts : nat -> list (nat * nat)) : list (nat * (nat * nat)) :=
  flat_map (fun mat => map (pair mat) (pts mat)) (seq 0 nmats).

Lemma fold_flat {S} (step : nat -> S -> nat * nat -> S) pts : forall l s,
  fold_left (fun s mat => fold_left (step mat) (pts mat) s) l s =
  fold_left (fun s q => step (fst q) s (snd q)) (flat_map (fun mat => map (pair mat) (pts mat)) l) s.
Proof.
  induction l as [|m l IH]; intros s; [reflexivity|]. cbn [fold_left flat_map]. rewrite fold_left_app, IH. f_equal.
  generalize (pts m) as ps. intros ps. revert s. induction ps as [|p ps IHp]; intros s; [reflexivity|]. cbn. apply IHp.
Qed.

Lemma mats_at_flat nmats pts g :
  mats_at nmats pts g = map (fun q => (fst q, snd (snd q))) (filter (fun q => Nat.eqb (fst (snd q)) g) (flat nmats pts)).
Proof.
  unfold mats_at, flat. induction (seq 0 nmats) as [|m l IH]; [reflexivity|]. cbn [flat_map].
  rewrite filter_app, map_app, IH. f_equal. induction (pts m) as [|p ps IHp]; [reflexivity|]. cbn.
  destruct (Nat.eqb (fst p) g); cbn; now rewrite IHp.
Qed.

Lemma flat_in nmats pts q : In q (flat nmats pts) <-> (fst q < nmats)%nat /\ In (snd q) (pts (fst q)).
Proof.
  unfold flat. rewrite in_flat_map. split.
  - intros (m & Hm & Hq). apply in_map_iff in Hq as (p & <- & Hp). apply in_seq in Hm. cbn. split; [lia|assumption].
  - intros [H1 H2]. exists (fst q). split; [apply in_seq; lia|]. apply in_map_iff. exists (snd q). split; [now destruct q|assumption].
Qed.

Lemma NoDup_app_intro {A} (l1 l2 : list A) : NoDup l1 -> NoDup l2 -> (forall x, In x l1 -> ~ In x l2) -> NoDup (l1 ++ l2).
Proof.
  induction l1 as [|a l1 IH]; intros H1 H2 H; [exact H2|]. inversion H1; subst. cbn. constructor.
  - rewrite in_app_iff. intros [X|X]; [contradiction|]. apply (H a); [now left|exact X].
  - apply IH; auto. intros x Hx. apply H. now right.
Qed.

Lemma flat_nodup nmats pts : layout_ok nmats pts -> NoDup (map (fun q => (fst q, snd (snd q))) (flat nmats pts)).
Proof.
  intros H. unfold flat.
  assert (G : forall l, (forall m, In m l -> NoDup (map snd (pts m))) -> NoDup l ->
     NoDup (map (fun q : nat * (nat * nat) => (fst q, snd (snd q))) (flat_map (fun mat => map (pair mat) (pts mat)) l))).
  { induction l as [|m l IH]; intros Hl Hn; [constructor|]. inversion Hn as [|? ? Hni Hn']; subst. cbn [flat_map].
    rewrite map_app. apply NoDup_app_intro.
    - rewrite map_map. cbn [fst snd].
      assert (N := Hl m (or_introl eq_refl)). revert N. generalize (pts m) as ps.
      induction ps as [|p ps IHp]; cbn; intros N; [constructor|]. inversion N as [|? ? X Y]; subst. constructor; [|now apply IHp].
      intros Z. apply in_map_iff in Z as (p' & E & Hp'). injection E as E. apply X. rewrite <- E. now apply in_map.
    - apply IH; [intros; apply Hl; now right|assumption].
    - intros x Hx Hy. apply in_map_iff in Hx as (q & <- & Hq). apply in_map_iff in Hq as (p & <- & _).
      apply in_map_iff in Hy as (q' & E & Hq'). apply in_flat_map in Hq' as (m' & Hm' & Hq').
      apply in_map_iff in Hq' as (p' & <- & _). cbn in E. injection E as E _. subst. contradiction. }
  apply G; [|apply seq_NoDup]. intros m Hm. apply in_seq in Hm. apply H. lia.
Qed.

Definition vf_of (s : mstate) (i : nat * nat) : R := m_vf s (fst i) (snd i).
Definition bulk_of (s : mstate) (i : nat * nat) : R := bulk s (fst i) (snd i).
Definition pres_of (s : mstate) (i : nat * nat) : R := m_pres s (fst i) (snd i).

Section Point.
Context (T : tparams) (E : teos) (div vol : nat -> R) (nmats : nat) (pts : nat -> list (nat * nat)) (s : mstate).
Notation fuzz := (t_fuzz T).
Notation L := (flat nmats pts).

Lemma build_flat : build_averages fuzz s nmats pts =
  fold_left (fun w q => build_step fuzz s (fst q) w (snd q)) L g_init.
Proof. unfold build_averages. exact (fold_flat (fun mat => build_step fuzz s mat) pts (seq 0 nmats) g_init). Qed.

(** All materials at [g] take part in the relaxation. *)
Definition mixed (g : nat) : Prop := forall i, In i (mats_at nmats pts g) -> 0 <= vf_of s i < 1 - fuzz.

Lemma partial_true mat k : m_vf s mat k < 1 - fuzz -> partial_vf fuzz s mat k = true.
Proof. intros H. unfold partial_vf. destruct (Rlt_dec (m_vf s mat k) (1 - fuzz)); [reflexivity|contradiction]. Qed.

Lemma fupd_same {A} (f : nat -> A) k v : fupd f k v k = v.
Proof. unfold fupd. now rewrite Nat.eqb_refl. Qed.
Lemma fupd_other {A} (f : nat -> A) k v i : i <> k -> fupd f k v i = f i.
Proof. intros H. unfold fupd. destruct (Nat.eqb_spec i k); [contradiction|reflexivity]. Qed.

Lemma build_at g : forall l w,
  (forall q, In q l -> fst (snd q) = g -> m_vf s (fst q) (snd (snd q)) < 1 - fuzz) ->
  let w' := fold_left (fun w q => build_step fuzz s (fst q) w (snd q)) l w in
  let at_g := map (fun q => (fst q, snd (snd q))) (filter (fun q => Nat.eqb (fst (snd q)) g) l) in
  g_pres w' g = g_pres w g + suml (fun i => compliance fuzz (vf_of s) (bulk_of s) i * pres_of s i) at_g /\
  g_den w' g = g_den w g + suml (compliance fuzz (vf_of s) (bulk_of s)) at_g /\
  (g_vmin w' g <= g_vmin w g) /\
  (forall i, In i at_g -> g_vmin w' g <= vf_of s i) /\
  (forall c, c <= g_vmin w g -> (forall i, In i at_g -> c <= vf_of s i) -> c <= g_vmin w' g) /\
  g_lim w' = g_lim w.
Proof.
  induction l as [|[mat [g' k]] l IH]; intros w H.
  - cbn. change (suml _ []) with 0. repeat split; try lra; try tauto; auto.
  - cbn [fold_left]. set (w1 := build_step fuzz s (fst (mat, (g', k))) w (snd (mat, (g', k)))).
    destruct (IH w1) as (A & B & C & D & F & G); [intros; apply H; [now right|assumption]|].
    cbn [filter fst snd]. destruct (Nat.eqb_spec g' g) as [->|Hne].
    + assert (P : partial_vf fuzz s mat k = true) by (apply partial_true, (H (mat, (g, k))); [now left|reflexivity]).
      cbn [map fst snd]. unfold w1, build_step in *. cbn [fst snd] in *. rewrite P in *. cbn [g_pres g_den g_vmin g_lim] in *.
      rewrite fupd_same in *. rewrite !suml_cons. cbn zeta. rewrite A, B.
      assert (Rk : compliance fuzz (vf_of s) (bulk_of s) (mat, k) = ratio fuzz s mat k) by reflexivity.
      assert (Pk : pres_of s (mat, k) = m_pres s mat k) by reflexivity. rewrite Rk, Pk. unfold fmin in *. assert (X := Rmin_l (m_vf s mat k) (g_vmin w g)). assert (Y := Rmin_r (m_vf s mat k) (g_vmin w g)).
      repeat split; try lra; try assumption.
      * intros i [<-|Hi]; [unfold vf_of; cbn [fst snd]; lra|now apply D].
      * intros c H1 H2. apply F; [|intros; apply H2; now right].
        apply Rmin_glb; [|assumption]. apply (H2 (mat, k)). now left.
    + assert (Q : g_pres w1 g = g_pres w g /\ g_den w1 g = g_den w g /\ g_vmin w1 g = g_vmin w g /\ g_lim w1 = g_lim w).
      { unfold w1, build_step. cbn [fst snd]. destruct (partial_vf fuzz s mat k); cbn [g_pres g_den g_vmin g_lim];
          rewrite ?fupd_other by (intros X; subst; contradiction); auto. }
      destruct Q as (Q1 & Q2 & Q3 & Q4). cbn zeta. rewrite A, B, Q1, Q2. rewrite Q3 in C, F. rewrite G, Q4. repeat split; auto.
Qed.

Notation W := (divide_averages fuzz (build_averages fuzz s nmats pts)).

Definition Rbar (g : nat) : R := suml (compliance fuzz (vf_of s) (bulk_of s)) (mats_at nmats pts g).
Definition pbar (g : nat) : R := suml (fun i => compliance fuzz (vf_of s) (bulk_of s) i * pres_of s i) (mats_at nmats pts g) / (Rbar g + fuzz).

Lemma W_at g : mixed g ->
  g_pres W g = pbar g /\ g_den W g = Rbar g /\ g_vmin W g <= 1 /\
  (forall i, In i (mats_at nmats pts g) -> g_vmin W g <= vf_of s i) /\
  (forall c, c <= 1 -> (forall i, In i (mats_at nmats pts g) -> c <= vf_of s i) -> c <= g_vmin W g) /\ g_lim W = (fun _ => 1).
Proof.
  intros Hm. unfold divide_averages. cbn [g_pres g_den g_vmin g_lim]. rewrite build_flat.
  destruct (build_at g L g_init) as (A & B & C & D & F & G).
  { intros q Hq Hg. apply (Hm (fst q, snd (snd q))). rewrite mats_at_flat. apply in_map_iff. exists q. split; [reflexivity|].
    apply filter_In. split; [exact Hq|]. now apply Nat.eqb_eq. }
  rewrite <- mats_at_flat in *. cbn [g_init g_pres g_den g_vmin g_lim] in *. rewrite A, B, G. unfold pbar, Rbar.
  rewrite !Rplus_0_l. repeat split; auto.
Qed.

(** The change loop. *)
Definition cs (sw : mstate * gwork) (q : nat * (nat * nat)) := change_step T div (fst q) sw (snd q).

Lemma change_flat sw : calc_change T div nmats pts sw = fold_left cs L sw.
Proof. unfold calc_change. exact (fold_flat (fun mat => change_step T div mat) pts (seq 0 nmats) sw). Qed.

Definition same_but_dvf (a b : mstate) : Prop :=
  m_vf a = m_vf b /\ m_vfin a = m_vfin b /\ m_pres a = m_pres b /\ m_rho a = m_rho b /\ m_sie a = m_sie b /\
  m_sspd a = m_sspd b /\ m_mass a = m_mass b.
Definition same_but_lim (a b : gwork) : Prop := g_pres a = g_pres b /\ g_den a = g_den b /\ g_vmin a = g_vmin b.

Definition param : R := fmin 1 (fmax 0 (t_c0 T)).
Lemma param_range : 0 <= param <= 1.
Proof.
  unfold param, fmin, fmax. assert (A := Rmax_l 0 (t_c0 T)). assert (B := Rmin_l 1 (Rmax 0 (t_c0 T))). split; [|lra].
  apply Rmin_glb; lra.
Qed.

Definition delta_at (w : gwork) (q : nat * (nat * nat)) : R :=
  if partial_vf fuzz s (fst q) (snd (snd q)) then change T s w div (fst q) (fst (snd q)) (snd (snd q)) else 0.

Lemma cs_step st w q : same_but_dvf st s -> same_but_lim w W ->
  let '(st', w') := cs (st, w) q in
  same_but_dvf st' s /\ same_but_lim w' W /\
  m_dvf st' = fupd2 (m_dvf st) (fst q) (snd (snd q)) (delta_at W q) /\
  g_lim w' = fupd (g_lim w) (fst (snd q))
     (if partial_vf fuzz s (fst q) (snd (snd q))
      then fmin (g_lim w (fst (snd q))) (param * g_vmin W (fst (snd q)) / (Rabs (delta_at W q) + fuzz)) else 1).
Proof.
  destruct q as [mat [g k]]. cbn [cs change_step fst snd]. intros (E1 & E2 & E3 & E4 & E5 & E6 & E7) (F1 & F2 & F3).
  unfold cs, change_step, delta_at. cbn [fst snd].
  assert (P : partial_vf fuzz st mat k = partial_vf fuzz s mat k) by (unfold partial_vf; now rewrite E1).
  rewrite P.
  assert (Q : change T st w div mat g k = change T s W div mat g k).
  { unfold change, ratio, bulk. now rewrite E1, E3, E4, E6, F1, F2. }
  destruct (partial_vf fuzz s mat k).
  - rewrite Q. unfold same_but_dvf, same_but_lim, set_dvf, set_lim, param.
    cbn [m_vf m_dvf m_vfin m_pres m_rho m_sie m_sspd m_mass g_pres g_den g_vmin g_lim]. rewrite <- F3. repeat split; auto.
  - unfold same_but_dvf, same_but_lim, set_dvf, set_lim.
    cbn [m_vf m_dvf m_vfin m_pres m_rho m_sie m_sspd m_mass g_pres g_den g_vmin g_lim]. repeat split; auto.
Qed.

Lemma fupd2_same {A} (f : nat -> nat -> A) a b v : fupd2 f a b v a b = v.
Proof. unfold fupd2. now rewrite !Nat.eqb_refl. Qed.
Lemma fupd2_other {A} (f : nat -> nat -> A) a b v a' b' : (a', b') <> (a, b) -> fupd2 f a b v a' b' = f a' b'.
Proof.
  intros H. unfold fupd2. destruct (Nat.eqb_spec a' a) as [->|]; [|reflexivity].
  destruct (Nat.eqb_spec b' b) as [->|]; [|reflexivity]. contradiction.
Qed.

Notation key := (fun q : nat * (nat * nat) => (fst q, snd (snd q))).

Lemma change_fold : forall l st w, same_but_dvf st s -> same_but_lim w W -> NoDup (map key l) ->
  let '(st', w') := fold_left cs l (st, w) in
  same_but_dvf st' s /\ same_but_lim w' W /\
  (forall q, In q l -> m_dvf st' (fst q) (snd (snd q)) = delta_at W q) /\
  (forall i, ~ In i (map key l) -> m_dvf st' (fst i) (snd i) = m_dvf st (fst i) (snd i)) /\
  (forall g, (forall q, In q l -> fst (snd q) = g -> partial_vf fuzz s (fst q) (snd (snd q)) = true) ->
     g_lim w' g <= g_lim w g /\
     (forall q, In q l -> fst (snd q) = g -> g_lim w' g <= param * g_vmin W g / (Rabs (delta_at W q) + fuzz)) /\
     (forall c, c <= g_lim w g -> (forall q, In q l -> fst (snd q) = g -> c <= param * g_vmin W g / (Rabs (delta_at W q) + fuzz)) -> c <= g_lim w' g)).
Proof.
  induction l as [|q l IH]; intros st w Hs Hw Hn.
  - cbn. repeat split; auto; try apply Hs; try apply Hw; try lra; try tauto.
  - cbn [fold_left map] in *. inversion Hn as [|? ? Hni Hn']; subst.
    assert (C := @cs_step st w q Hs Hw). destruct (cs (st, w) q) as [st1 w1]. destruct C as (C1 & C2 & C3 & C4).
    specialize (IH st1 w1 C1 C2 Hn'). destruct (fold_left cs l (st1, w1)) as [st' w'].
    destruct IH as (I1 & I2 & I3 & I4 & I5). split; [exact I1|]. split; [exact I2|]. split; [|split].
    + intros q' [<-|Hq]; [|now apply I3]. change (fst q) with (fst (key q)). change (snd (snd q)) with (snd (key q)).
      rewrite I4 by assumption. cbn [fst snd]. rewrite C3. apply fupd2_same.
    + intros i Hi. rewrite I4 by (intros X; apply Hi; now right). rewrite C3. apply fupd2_other.
      intros X. apply Hi. left. now rewrite <- surjective_pairing in X.
    + intros g Hg. destruct (I5 g) as (J1 & J2 & J3); [intros; apply Hg; [now right|assumption]|].
      rewrite C4 in J1, J3. destruct (Nat.eq_dec (fst (snd q)) g) as [<-|Hne].
      * rewrite fupd_same in J1, J3. rewrite (Hg q) in J1, J3 by (now left || reflexivity). unfold fmin in *.
        assert (X := Rmin_l (g_lim w (fst (snd q))) (param * g_vmin W (fst (snd q)) / (Rabs (delta_at W q) + fuzz))).
        assert (Y := Rmin_r (g_lim w (fst (snd q))) (param * g_vmin W (fst (snd q)) / (Rabs (delta_at W q) + fuzz))).
        repeat split.
        -- lra.
        -- intros q' [<-|Hq'] Hg'; [lra|now apply J2].
        -- intros c L0 Lq. apply J3; [apply Rmin_glb; [exact L0|apply Lq; [now left|reflexivity]]|]. intros; apply Lq; [now right|assumption].
      * rewrite fupd_other in J1, J3 by auto. repeat split; auto.
        -- intros q' [<-|Hq'] Hg'; [contradiction|now apply J2].
        -- intros c L0 Lq. apply J3; [exact L0|]. intros; apply Lq; [now right|assumption].
Qed.

(** The final update loop. *)
Definition us (w : gwork) (st : mstate) (q : nat * (nat * nat)) := update_step E vol w (fst q) st (snd q).

Lemma update_flat w st :
  fold_left (fun s mat => fold_left (update_step E vol w mat) (pts mat) s) (seq 0 nmats) st = fold_left (us w) L st.
Proof. exact (fold_flat (fun mat => update_step E vol w mat) pts (seq 0 nmats) st). Qed.

Definition new_vf (w : gwork) (st : mstate) (q : nat * (nat * nat)) : R :=
  fmin 1 (fmax 0 (m_vf st (fst q) (snd (snd q)) + g_lim w (fst (snd q)) * m_dvf st (fst q) (snd (snd q)))).

Lemma update_fold w : forall l st, NoDup (map key l) ->
  let st' := fold_left (us w) l st in
  m_vfin st' = m_vfin st /\ m_mass st' = m_mass st /\
  (forall q, In q l -> let mat := fst q in let g := fst (snd q) in let k := snd (snd q) in
     m_vf st' mat k = new_vf w st q /\
     m_dvf st' mat k = new_vf w st q - m_vf st mat k /\
     m_sie st' mat k = m_sie st mat k - g_pres w g * ((new_vf w st q - m_vf st mat k) * vol g * m_vfin st mat k) / (m_mass st mat k + 1e-20) /\
     m_rho st' mat k = m_mass st mat k / (vol g * new_vf w st q * m_vfin st mat k + 1e-20)) /\
  (forall i, ~ In i (map key l) -> m_vf st' (fst i) (snd i) = m_vf st (fst i) (snd i) /\
      m_dvf st' (fst i) (snd i) = m_dvf st (fst i) (snd i) /\
      m_sie st' (fst i) (snd i) = m_sie st (fst i) (snd i) /\ m_rho st' (fst i) (snd i) = m_rho st (fst i) (snd i)).
Proof.
  induction l as [|q l IH]; intros st Hn.
  - cbn [fold_left]. cbv zeta. split; [reflexivity|]. split; [reflexivity|]. split; [intros q []|auto].
  - cbn [fold_left map] in *. inversion Hn as [|? ? Hni Hn']; subst. cbn zeta.
    destruct (IH (us w st q) Hn') as (A1 & A2 & A3 & A4). clear IH.
    set (st' := fold_left (us w) l (us w st q)) in *.
    destruct q as [mat [g k]]. cbn [fst snd] in *.
    assert (Q1 : m_vfin (us w st (mat, (g, k))) = m_vfin st) by reflexivity.
    assert (Q2 : m_mass (us w st (mat, (g, k))) = m_mass st) by reflexivity.
    assert (Qo : forall i, i <> (mat, k) ->
        m_vf (us w st (mat, (g, k))) (fst i) (snd i) = m_vf st (fst i) (snd i) /\
        m_dvf (us w st (mat, (g, k))) (fst i) (snd i) = m_dvf st (fst i) (snd i) /\
        m_sie (us w st (mat, (g, k))) (fst i) (snd i) = m_sie st (fst i) (snd i) /\
        m_rho (us w st (mat, (g, k))) (fst i) (snd i) = m_rho st (fst i) (snd i)).
    { intros [a b] Hi. unfold us, update_step. cbn [fst snd m_vf m_dvf m_sie m_rho].
      rewrite !fupd2_other by assumption. auto. }
    rewrite Q1 in A1. rewrite Q2 in A2. split; [exact A1|]. split; [exact A2|]. split.
    + intros q' [<-|Hq'].
      * destruct (A4 (mat, k) Hni) as (B1 & B2 & B3 & B4). cbn [fst snd] in *. rewrite B1, B2, B3, B4.
        unfold us, update_step, new_vf. cbn [fst snd m_vf m_dvf m_sie m_rho]. rewrite !fupd2_same. auto.
      * destruct (A3 q' Hq') as (B1 & B2 & B3 & B4). rewrite B1, B2, B3, B4.
        assert (Hk : (fst q', snd (snd q')) <> (mat, k)).
        { intros X. apply Hni. rewrite <- X. apply in_map_iff. exists q'. split; [reflexivity|assumption]. }
        destruct (Qo _ Hk) as (D1 & D2 & D3 & D4). cbn [fst snd] in D1, D2, D3, D4.
        unfold new_vf. rewrite D1, D2, D3, Q1, Q2. auto.
    + intros i Hi. assert (Hi1 : ~ In i (map key l)) by (intros X; apply Hi; now right).
      assert (Hi2 : i <> (mat, k)) by (intros X; apply Hi; left; now symmetry).
      destruct (A4 i Hi1) as (B1 & B2 & B3 & B4). destruct (Qo i Hi2) as (D1 & D2 & D3 & D4).
      rewrite B1, B2, B3, B4. auto.
Qed.

(** The whole model. *)
Definition wanted (g : nat) (i : nat * nat) : R :=
  compliance fuzz (vf_of s) (bulk_of s) i * (pres_of s i - pbar g) / (t_c1 T + fuzz)
           + (compliance fuzz (vf_of s) (bulk_of s) i / (Rbar g + fuzz) - vf_of s i) * div g * t_alpha T * t_dt T.
Definition limited (lim : nat -> R) (g : nat) (i : nat * nat) : R := lim g * wanted g i.

(** [x] keeps the limited change below the allowed part of every fraction at [g]. *)
Definition admissible (g : nat) (x : R) : Prop :=
  x <= 1 /\ forall i j, In i (mats_at nmats pts g) -> In j (mats_at nmats pts g) -> x * (Rabs (wanted g i) + fuzz) <= param * vf_of s j.

Definition clamp01 (x : R) : R := fmin 1 (fmax 0 x).

Lemma in_mats_at g i : In i (mats_at nmats pts g) <-> exists q, In q L /\ fst (snd q) = g /\ key q = i.
Proof.
  rewrite mats_at_flat, in_map_iff. split.
  - intros (q & E1 & H). apply filter_In in H as [H1 H2]. apply Nat.eqb_eq in H2. eauto.
  - intros (q & H1 & H2 & H3). exists q. split; [exact H3|]. apply filter_In. split; [exact H1|]. now apply Nat.eqb_eq.
Qed.

Theorem equilibrate_spec : layout_ok nmats pts -> 0 < fuzz ->
  let s' := equilibrate T E div vol nmats pts s in
  m_vfin s' = m_vfin s /\ m_mass s' = m_mass s /\
  exists lim, forall g, mixed g ->
    0 <= lim g /\ admissible g (lim g) /\ (forall x, admissible g x -> x <= lim g) /\
    forall i, In i (mats_at nmats pts g) ->
      vf_of s' i = clamp01 (vf_of s i + limited lim g i) /\
      (forall j, In j (mats_at nmats pts g) -> Rabs (limited lim g i) <= vf_of s j) /\
      m_sie s' (fst i) (snd i) = m_sie s (fst i) (snd i)
         - pbar g * ((vf_of s' i - vf_of s i) * vol g * m_vfin s (fst i) (snd i)) / (m_mass s (fst i) (snd i) + 1e-20) /\
      m_rho s' (fst i) (snd i) = m_mass s (fst i) (snd i) / (vol g * vf_of s' i * m_vfin s (fst i) (snd i) + 1e-20).
Proof.
  intros HL Hf. unfold equilibrate. rewrite change_flat.
  assert (N := flat_nodup _ _ HL).
  assert (C := @change_fold L s W). destruct (fold_left cs L (s, W)) as [s1 w1].
  destruct C as (C1 & C2 & C3 & C4 & C5).
  { repeat split. } { repeat split. } { exact N. }
  destruct C1 as (E1 & E2 & E3 & E4 & E5 & E6 & E7). destruct C2 as (F1 & F2 & F3).
  rewrite update_flat. destruct (@update_fold w1 L s1 N) as (U1 & U2 & U3 & U4).
  set (s' := fold_left (us w1) L s1) in *. cbn zeta.
  split; [now rewrite U1|]. split; [now rewrite U2|]. exists (g_lim w1). intros g Hm.
  destruct (@W_at g Hm) as (W1 & W2 & W3 & W4 & W5 & W6).
  destruct (C5 g) as (L1 & L2 & L3).
  { intros q Hq Hg. apply partial_true. apply (Hm (key q)). apply in_mats_at. eauto. }
  rewrite W6 in L1, L3. assert (PR := param_range).
  assert (V0 : 0 <= g_vmin W g) by (apply W5; [lra|]; intros i Hi; now apply Hm).
  assert (Dq : forall q, In q L -> fst (snd q) = g -> delta_at W q = wanted g (key q)).
  { intros q Hq Hg. unfold delta_at. rewrite partial_true by (apply (Hm (key q)); apply in_mats_at; eauto). rewrite Hg. unfold change, wanted. rewrite W1, W2. reflexivity. }
  assert (LN : 0 <= g_lim w1 g).
  { apply L3; [lra|]. intros q Hq Hg. apply Rmult_le_pos; [apply Rmult_le_pos; lra|]. left. apply Rinv_0_lt_compat.
    assert (Z := Rabs_pos (delta_at W q)). lra. }
  split; [exact LN|]. split; [|split].
  { split; [lra|]. intros i j Hi Hj. destruct (proj1 (in_mats_at g i) Hi) as (q & Hq & Hg & Hk). subst i.
    specialize (L2 q Hq Hg). rewrite (Dq q Hq Hg) in L2. assert (Z := Rabs_pos (wanted g (key q))).
    apply Rle_trans with (param * g_vmin W g); [|apply Rmult_le_compat_l; [lra|now apply W4]].
    apply Rmult_le_compat_r with (r := Rabs (wanted g (key q)) + fuzz) in L2; [|lra].
    replace (param * g_vmin W g / (Rabs (wanted g (key q)) + fuzz) * (Rabs (wanted g (key q)) + fuzz)) with (param * g_vmin W g) in L2 by (field; lra).
    exact L2. }
  { intros x [X1 X2]. apply L3; [exact X1|]. intros q Hq Hg. rewrite (Dq q Hq Hg).
    assert (Hi : In (key q) (mats_at nmats pts g)) by (apply in_mats_at; eauto).
    assert (Z := Rabs_pos (wanted g (key q))). set (b := Rabs (wanted g (key q)) + fuzz) in *.
    assert (Hb : 0 < b) by (unfold b; lra).
    apply Rmult_le_reg_r with b; [exact Hb|]. replace (param * g_vmin W g / b * b) with (param * g_vmin W g) by (field; lra).
    destruct (Req_dec param 0) as [P0|P0].
    - rewrite P0, Rmult_0_l. specialize (X2 _ _ Hi Hi). fold b in X2. rewrite P0, Rmult_0_l in X2. exact X2.
    - assert (PP : 0 < param) by lra. apply Rmult_le_reg_l with (/ param); [now apply Rinv_0_lt_compat|].
      rewrite <- (Rmult_assoc (/ param) param), Rinv_l, Rmult_1_l by exact P0.
      assert (Q : forall j, In j (mats_at nmats pts g) -> / param * (x * b) <= vf_of s j).
      { intros j Hj. apply Rmult_le_reg_l with param; [exact PP|]. rewrite <- Rmult_assoc, Rinv_r, Rmult_1_l by exact P0.
        now apply X2. }
      apply W5; [|exact Q]. apply Rle_trans with (vf_of s (key q)); [now apply Q|]. destruct (Hm _ Hi). lra. }
  intros i Hi. destruct (proj1 (in_mats_at g i) Hi) as (q & Hq & Hg & Hk). subst i. cbn [fst snd].
  destruct (U3 q Hq) as (V1 & V2 & V3 & V4). cbn zeta in V1, V2, V3, V4.
  assert (NV : new_vf w1 s1 q = clamp01 (vf_of s (key q) + limited (g_lim w1) g (key q))).
  { unfold new_vf, clamp01, limited. rewrite (C3 q Hq), (Dq q Hq Hg), Hg, E1. reflexivity. }
  assert (VF : vf_of s' (key q) = clamp01 (vf_of s (key q) + limited (g_lim w1) g (key q))).
  { unfold vf_of at 1. cbn [fst snd]. now rewrite V1. }
  split; [exact VF|]. split; [|split].
  - intros j Hj. unfold limited. rewrite Rabs_mult, (Rabs_right (g_lim w1 g)) by (now apply Rle_ge).
    specialize (L2 q Hq Hg). rewrite (Dq q Hq Hg) in L2. set (a := Rabs (wanted g (key q))) in *. assert (Ha : 0 <= a) by apply Rabs_pos.
    apply Rle_trans with (g_vmin W g); [|now apply W4].
    set (v := g_vmin W g) in *.
    apply Rle_trans with (param * v / (a + fuzz) * a); [apply Rmult_le_compat_r; assumption|].
    assert (X : param * v / (a + fuzz) * a = param * v * (a / (a + fuzz))) by (field; lra).
    rewrite X. assert (Y : 0 <= a / (a + fuzz) <= 1).
    { split; [apply Rmult_le_pos; [exact Ha|left; apply Rinv_0_lt_compat; lra]|].
      apply Rmult_le_reg_r with (a + fuzz); [lra|]. field_simplify; lra. }
    set (y := a / (a + fuzz)) in *. assert (Z : 0 <= 1 - param * y) by nra.
    assert (Z2 : 0 <= v * (1 - param * y)) by (apply Rmult_le_pos; lra). lra.
  - rewrite V3, E5, E2, E7, F1, Hg, W1. rewrite E1. rewrite NV, VF. reflexivity.
  - rewrite V4, E2, E7, Hg, NV, VF. reflexivity.
Qed.

(** Consequences when the clamp is inactive. *)
Lemma rabs_inv x y : Rabs x <= y -> - y <= x <= y.
Proof. intros H. assert (A := Rle_abs x). assert (B := Rle_abs (- x)). rewrite Rabs_Ropp in B. lra. Qed.

Lemma clamp_id x : 0 <= x <= 1 -> clamp01 x = x.
Proof. intros H. unfold clamp01, fmin, fmax. rewrite Rmax_right by lra. apply Rmin_right. lra. Qed.
Lemma clamp_range x : 0 <= clamp01 x <= 1.
Proof.
  unfold clamp01, fmin, fmax. split; [|apply Rmin_l]. apply Rmin_glb; [lra|apply Rmax_l].
Qed.

Lemma in_le_suml {A} (f : A -> R) (dec : forall a b : A, {a = b} + {a <> b}) l i j :
  (forall a, In a l -> 0 <= f a) -> In i l -> In j l -> i <> j -> f i + f j <= suml f l.
Proof.
  induction l as [|a l IH]; intros H Hi Hj Hne; [destruct Hi|]. rewrite suml_cons.
  assert (N : 0 <= suml f l) by (apply suml_nonneg; intros; apply H; now right).
  assert (One : forall b, In b l -> f b <= suml f l).
  { intros b Hb. assert (G : forall l, (forall a, In a l -> 0 <= f a) -> In b l -> f b <= suml f l).
    { induction l0 as [|c l0 IH0]; intros H0 Hb0; [destruct Hb0|]. rewrite suml_cons.
      assert (0 <= suml f l0) by (apply suml_nonneg; intros; apply H0; now right).
      destruct Hb0 as [->|Hb0]; [lra|]. assert (0 <= f c) by (apply H0; now left).
      assert (f b <= suml f l0) by (apply IH0; auto; intros; apply H0; now right). lra. }
    apply G; auto. intros; apply H; now right. }
  assert (Pa : 0 <= f a) by (apply H; now left).
  destruct Hi as [->|Hi]; destruct Hj as [->|Hj]; [contradiction| | |].
  - specialize (One j Hj). lra.
  - specialize (One i Hi). lra.
  - assert (f i + f j <= suml f l) by (apply IH; auto; intros; apply H; now right). lra.
Qed.

Lemma mats_at_nodup g : layout_ok nmats pts -> NoDup (mats_at nmats pts g).
Proof.
  intros HL. rewrite mats_at_flat. assert (N := flat_nodup _ _ HL). revert N. generalize L as l.
  induction l as [|q l IH]; cbn; intros N; [constructor|]. inversion N as [|? ? X Y]; subst.
  destruct (Nat.eqb (fst (snd q)) g); [|now apply IH]. cbn. constructor; [|now apply IH].
  intros Z. apply X. apply in_map_iff in Z as (q' & E1 & Hq'). apply in_map_iff. exists q'. split; [exact E1|].
  now apply filter_In in Hq'.
Qed.

Lemma other_mat g i : layout_ok nmats pts -> (2 <= length (mats_at nmats pts g))%nat -> In i (mats_at nmats pts g) ->
  exists j, In j (mats_at nmats pts g) /\ j <> i.
Proof.
  intros HL H2 Hi. assert (N := mats_at_nodup g HL). destruct (mats_at nmats pts g) as [|a [|b l]]; cbn in H2; try lia.
  destruct (natpair_dec a i) as [->|]; [|exists a; split; [now left|assumption]].
  exists b. split; [right; now left|]. intros ->. inversion N as [|? ? X Y]; subst. apply X. now left.
Qed.

Theorem equilibrate_sum : layout_ok nmats pts -> 0 < fuzz ->
  forall g, mixed g -> (2 <= length (mats_at nmats pts g))%nat ->
  suml (vf_of s) (mats_at nmats pts g) <= 1 ->
  (forall i, In i (mats_at nmats pts g) -> 0 <= bulk_of s i) -> 0 < t_c1 T + fuzz ->
  let s' := equilibrate T E div vol nmats pts s in
  exists lim, 0 <= lim /\ admissible g lim /\ (forall x, admissible g x -> x <= lim) /\
   (forall i, In i (mats_at nmats pts g) -> vf_of s' i = vf_of s i + lim * wanted g i) /\
   suml (vf_of s') (mats_at nmats pts g) = suml (vf_of s) (mats_at nmats pts g) +
      lim * (fuzz * pbar g / (t_c1 T + fuzz)
             + (1 - suml (vf_of s) (mats_at nmats pts g) - fuzz / (Rbar g + fuzz)) * div g * t_alpha T * t_dt T).
Proof.
  intros HL Hf g Hm H2 Hsum HK Hc s'. destruct (equilibrate_spec HL Hf) as (_ & _ & lim & H).
  destruct (H g Hm) as (Hl & Ha & Hx & Hi). exists (lim g). split; [exact Hl|]. split; [exact Ha|]. split; [exact Hx|].
  assert (V : forall i, In i (mats_at nmats pts g) -> vf_of s' i = vf_of s i + limited lim g i).
  { intros i Hin. destruct (Hi i Hin) as (A & B & _). unfold s'. rewrite A. apply clamp_id.
    destruct (other_mat g i HL H2 Hin) as (j & Hj & Hne).
    assert (X := B i Hin). assert (Y := B j Hj). apply rabs_inv in X. apply rabs_inv in Y.
    assert (Z : vf_of s i + vf_of s j <= suml (vf_of s) (mats_at nmats pts g)).
    { apply in_le_suml; auto. { apply natpair_dec. } intros a Hain. apply (Hm a Hain). }
    lra. }
  split; [exact V|].
  rewrite (suml_ext _ _ _ V), suml_plus. f_equal. unfold limited.
  rewrite suml_scal. f_equal. unfold wanted. rewrite suml_plus.
  assert (HR : 0 <= Rbar g).
  { apply suml_nonneg. intros i Hin. unfold compliance. apply Rmult_le_pos; [apply (Hm i Hin)|].
    left. apply Rinv_0_lt_compat. specialize (HK i Hin). lra. }
  f_equal.
  - rewrite (suml_ext _ (fun i => / (t_c1 T + fuzz) * (compliance fuzz (vf_of s) (bulk_of s) i * pres_of s i - pbar g * compliance fuzz (vf_of s) (bulk_of s) i)) _).
    2:{ intros i _. field. lra. }
    rewrite suml_scal, suml_minus, suml_scal. fold (Rbar g).
    assert (P : suml (fun i => compliance fuzz (vf_of s) (bulk_of s) i * pres_of s i) (mats_at nmats pts g) = pbar g * (Rbar g + fuzz)).
    { unfold pbar. field. lra. }
    rewrite P. field. lra.
  - rewrite (suml_ext _ (fun i => (div g * t_alpha T * t_dt T) * (/ (Rbar g + fuzz) * compliance fuzz (vf_of s) (bulk_of s) i - vf_of s i)) _).
    2:{ intros i _. field. lra. }
    rewrite suml_scal, suml_minus, suml_scal. fold (Rbar g). field. lra.
Qed.

(** Energy exchanged at a gauss point: pressure work of the mean pressure. *)
Theorem equilibrate_energy : layout_ok nmats pts -> 0 < fuzz ->
  forall g, mixed g -> (forall i, In i (mats_at nmats pts g) -> 0 <= m_mass s (fst i) (snd i)) ->
  let s' := equilibrate T E div vol nmats pts s in
  suml (fun i => (m_mass s (fst i) (snd i) + 1e-20) * (m_sie s' (fst i) (snd i) - m_sie s (fst i) (snd i))) (mats_at nmats pts g) =
  - pbar g * vol g * suml (fun i => (vf_of s' i - vf_of s i) * m_vfin s (fst i) (snd i)) (mats_at nmats pts g).
Proof.
  intros HL Hf g Hm HM s'. destruct (equilibrate_spec HL Hf) as (_ & _ & lim & H).
  destruct (H g Hm) as (_ & _ & _ & Hi). rewrite <- suml_scal. apply suml_ext. intros i Hin.
  destruct (Hi i Hin) as (_ & _ & A & _). fold s' in A. rewrite A. specialize (HM i Hin). field.
  assert (0 < 1e-20) by lra. lra.
Qed.

(** Points whose only materials are pure are left alone. *)
Lemma fmin_fmax_id x : 0 <= x <= 1 -> fmin 1 (fmax 0 x) = x.
Proof. exact (clamp_id x). Qed.

Theorem equilibrate_pure : layout_ok nmats pts ->
  let s' := equilibrate T E div vol nmats pts s in
  forall g i, In i (mats_at nmats pts g) -> 1 - fuzz <= vf_of s i <= 1 -> 0 <= vf_of s i ->
  vf_of s' i = vf_of s i /\ m_sie s' (fst i) (snd i) = m_sie s (fst i) (snd i).
Proof.
  intros HL. unfold equilibrate. rewrite change_flat.
  assert (N := flat_nodup _ _ HL).
  assert (C := @change_fold L s W). destruct (fold_left cs L (s, W)) as [s1 w1].
  destruct C as (C1 & C2 & C3 & C4 & C5).
  { repeat split. } { repeat split. } { exact N. }
  destruct C1 as (E1 & E2 & E3 & E4 & E5 & E6 & E7).
  rewrite update_flat. destruct (@update_fold w1 L s1 N) as (U1 & U2 & U3 & U4).
  set (s' := fold_left (us w1) L s1) in *. cbn zeta. intros g i Hi Hv H0.
  destruct (proj1 (in_mats_at g i) Hi) as (q & Hq & Hg & Hk). subst i. cbn [fst snd].
  destruct (U3 q Hq) as (V1 & V2 & V3 & V4). cbn zeta in V1, V2, V3, V4.
  assert (D : delta_at W q = 0).
  { unfold delta_at. unfold partial_vf. unfold vf_of in Hv. cbn [fst snd] in Hv.
    destruct (Rlt_dec (m_vf s (fst q) (snd (snd q))) (1 - fuzz)); [lra|reflexivity]. }
  assert (NV : new_vf w1 s1 q = m_vf s (fst q) (snd (snd q))).
  { unfold new_vf. rewrite (C3 q Hq), D, Rmult_0_r, Rplus_0_r, E1. apply clamp_id. unfold vf_of in *. cbn [fst snd] in *. lra. }
  unfold vf_of. cbn [fst snd]. rewrite V1, NV. split; [reflexivity|].
  rewrite V3, NV, E1, E5. unfold Rdiv. ring.
Qed.

(** Every visited volume fraction ends in [0,1], whatever the state. *)
Theorem equilibrate_range : layout_ok nmats pts ->
  let s' := equilibrate T E div vol nmats pts s in
  forall g i, In i (mats_at nmats pts g) -> 0 <= vf_of s' i <= 1.
Proof.
  intros HL. unfold equilibrate. rewrite change_flat.
  assert (N := flat_nodup _ _ HL).
  assert (C := @change_fold L s W). destruct (fold_left cs L (s, W)) as [s1 w1].
  rewrite update_flat. destruct (@update_fold w1 L s1 N) as (U1 & U2 & U3 & U4).
  set (s' := fold_left (us w1) L s1) in *. cbn zeta. intros g i Hi.
  destruct (proj1 (in_mats_at g i) Hi) as (q & Hq & Hg & Hk). subst i.
  destruct (U3 q Hq) as (V1 & _). cbn zeta in V1. unfold vf_of. cbn [fst snd]. rewrite V1. apply clamp_range.
Qed.

End Point.

(** The source order satisfies [layout_ok] when a material lists each element once. *)
Lemma mat_points_ok g elem_in n : NoDup (map elem_in (seq 0 n)) ->
  NoDup (map fst (mat_points g elem_in n)) /\ NoDup (map snd (mat_points g elem_in n)).
Proof.
  intros H.
  assert (G : forall (h : nat -> nat) l, NoDup (map h l) ->
     NoDup (flat_map (fun sid => map (fun lid => (h sid * g + lid)%nat) (seq 0 g)) l)).
  { intros h. induction l as [|a l IH]; cbn; intros N; [constructor|]. inversion N as [|? ? X Y]; subst.
    apply NoDup_app_intro.
    - assert (Q : forall m, NoDup (map (fun lid => (h a * g + lid)%nat) (seq m g))).
      { generalize g at 2 as k. induction k as [|k IHk]; intros m; cbn; [constructor|]. constructor; [|apply IHk].
        intros Z. apply in_map_iff in Z as (x & E1 & Hx). apply in_seq in Hx. lia. }
      apply Q.
    - now apply IH.
    - intros x Hx Hy. apply in_map_iff in Hx as (lid & <- & Hl). apply in_seq in Hl.
      apply in_flat_map in Hy as (b & Hb & Hy). apply in_map_iff in Hy as (lid' & E1 & Hl'). apply in_seq in Hl'.
      assert (h b = h a) by nia. apply X. rewrite <- H0. now apply in_map. }
  assert (M : forall (A : Type) (f : nat * nat -> A) l, map f (flat_map (fun sid => map (fun lid => (elem_in sid * g + lid, sid * g + lid)%nat) (seq 0 g)) l)
     = flat_map (fun sid => map (fun lid => f (elem_in sid * g + lid, sid * g + lid)%nat) (seq 0 g)) l).
  { intros A f l. induction l as [|a l IH]; [reflexivity|]. cbn. rewrite map_app, map_map, IH. reflexivity. }
  unfold mat_points. rewrite !M. cbn [fst snd]. split.
  - now apply G.
  - apply (G (fun x => x)). rewrite map_id. apply seq_NoDup.
Qed.

(** Statements of TiptonProps.v. *)
Lemma tip_range T E div vol nmats pts s : layout_ok nmats pts ->
  forall g i, In i (mats_at nmats pts g) ->
  0 <= m_vf (equilibrate T E div vol nmats pts s) (fst i) (snd i) <= 1.
Proof. intros HL g i. exact (equilibrate_range T E div vol nmats pts s HL g i). Qed.

Lemma tip_layout gpe elem_in num nmats :
  (forall mat, (mat < nmats)%nat -> NoDup (map (elem_in mat) (seq 0 (num mat)))) ->
  layout_ok nmats (fun mat => mat_points gpe (elem_in mat) (num mat)).
Proof. intros H mat Hm. apply mat_points_ok. now apply H. Qed.

Lemma allowed_admissible T div nmats pts s g x :
  admissible T div nmats pts s g x <->
  allowed (t_fuzz T) (Rmin 1 (Rmax 0 (t_c0 T))) (fun i => m_vf s (fst i) (snd i))
   (wanted_change (t_fuzz T) (t_c1 T) (div g) (t_alpha T) (t_dt T) (fun i => m_vf s (fst i) (snd i))
     (fun i => m_rho s (fst i) (snd i) * m_sspd s (fst i) (snd i) * m_sspd s (fst i) (snd i)) (fun i => m_pres s (fst i) (snd i))
     (mats_at nmats pts g)) (mats_at nmats pts g) x.
Proof. reflexivity. Qed.

Lemma tip_update T E div vol nmats pts s g :
  layout_ok nmats pts -> 0 < t_fuzz T -> 0 < t_c1 T + t_fuzz T ->
  let l := mats_at nmats pts g in
  let f := fun i => m_vf s (fst i) (snd i) in
  let f' := fun i => m_vf (equilibrate T E div vol nmats pts s) (fst i) (snd i) in
  let K := fun i => m_rho s (fst i) (snd i) * m_sspd s (fst i) (snd i) * m_sspd s (fst i) (snd i) in
  let p := fun i => m_pres s (fst i) (snd i) in
  let want := wanted_change (t_fuzz T) (t_c1 T) (div g) (t_alpha T) (t_dt T) f K p l in
  (2 <= length l)%nat -> (forall i, In i l -> 0 <= f i < 1 - t_fuzz T) -> (forall i, In i l -> 0 <= K i) -> total f l <= 1 ->
  exists lim, 0 <= lim /\ greatest (allowed (t_fuzz T) (Rmin 1 (Rmax 0 (t_c0 T))) f want l) lim /\
    (forall i, In i l -> f' i = f i + lim * want i) /\
    total f' l = total f l + lim * (t_fuzz T * mean_pressure (t_fuzz T) f K p l / (t_c1 T + t_fuzz T)
       + (1 - total f l - t_fuzz T / (total (compliance (t_fuzz T) f K) l + t_fuzz T)) * div g * t_alpha T * t_dt T).
Proof.
  intros HL Hf Hc l f f' K p want H2 Hm HK HS.
  destruct (equilibrate_sum T E div vol nmats pts s HL Hf g Hm H2 HS HK Hc) as (lim & A & B & C & D & F).
  exists lim. split; [exact A|]. split; [split; [exact B|exact C]|]. split; [exact D|exact F].
Qed.

Lemma total_one_two nmats pts s g fuzz : layout_ok nmats pts -> 0 < fuzz ->
  (forall i, In i (mats_at nmats pts g) -> 0 <= vf_of s i < 1 - fuzz) -> suml (vf_of s) (mats_at nmats pts g) = 1 ->
  (2 <= length (mats_at nmats pts g))%nat.
Proof.
  intros HL Hf H HS. destruct (mats_at nmats pts g) as [|a [|b l]]; cbn [length]; [| |lia].
  - change (suml (vf_of s) []) with 0 in HS. lra.
  - specialize (H a (or_introl eq_refl)). rewrite suml_cons in HS. change (suml (vf_of s) []) with 0 in HS. lra.
Qed.

Lemma tip_sum T E div vol nmats pts s g :
  layout_ok nmats pts -> 0 < t_fuzz T -> 0 < t_c1 T + t_fuzz T ->
  let l := mats_at nmats pts g in
  let f := fun i => m_vf s (fst i) (snd i) in
  let f' := fun i => m_vf (equilibrate T E div vol nmats pts s) (fst i) (snd i) in
  let K := fun i => m_rho s (fst i) (snd i) * m_sspd s (fst i) (snd i) * m_sspd s (fst i) (snd i) in
  let p := fun i => m_pres s (fst i) (snd i) in
  (forall i, In i l -> 0 <= f i < 1 - t_fuzz T) -> (forall i, In i l -> 0 <= K i) -> total f l = 1 ->
  exists lim, 0 <= lim <= 1 /\
    total f' l = 1 + t_fuzz T * lim * (mean_pressure (t_fuzz T) f K p l / (t_c1 T + t_fuzz T)
       - div g * t_alpha T * t_dt T / (total (compliance (t_fuzz T) f K) l + t_fuzz T)).
Proof.
  intros HL Hf Hc l f f' K p Hm HK HS.
  assert (H2 := total_one_two nmats pts s g (t_fuzz T) HL Hf Hm HS).
  destruct (tip_update T E div vol nmats pts s g HL Hf Hc H2 Hm HK) as (lim & A & B & _ & F); [fold l f; lra|].
  exists lim. destruct B as [[B _] _]. split; [lra|]. fold l f f' K p in F. rewrite F, HS.
  unfold Rdiv. ring.
Qed.

Lemma div_le a b c : 0 < b -> a <= c * b -> a / b <= c.
Proof. intros Hb H. apply Rmult_le_reg_r with b; [exact Hb|]. unfold Rdiv. rewrite Rmult_assoc, Rinv_l by lra. lra. Qed.
Lemma le_div a b c : 0 < b -> c * b <= a -> c <= a / b.
Proof. intros Hb H. apply Rmult_le_reg_r with b; [exact Hb|]. unfold Rdiv. rewrite Rmult_assoc, Rinv_l by lra. lra. Qed.

Lemma two_layout : layout_ok 2 (fun _ : nat => [(0, 0)]%nat).
Proof. intros m _. cbn. split; repeat constructor; intros []. Qed.

Lemma tip_sum_refuted :
  let T := mkT 1 1 1e-16 1 1 in
  let s := mkM (fun _ _ => 1/4) (fun _ _ => 0) (fun _ _ => 1) (fun _ _ => 0) (fun _ _ => 1) (fun _ _ => 0) (fun _ _ => 1) (fun _ _ => 1) in
  let pts := fun _ : nat => [(0, 0)]%nat in
  layout_ok 2 pts /\
  total (fun i => m_vf s (fst i) (snd i)) (mats_at 2 pts 0) = 1/2 /\
  forall E vol,
  total (fun i => m_vf (equilibrate T E (fun _ => 1) vol 2 pts s) (fst i) (snd i)) (mats_at 2 pts 0) >= 7/10.
Proof.
  intros T s pts. assert (M : mats_at 2 pts 0 = [(0, 0); (1, 0)]%nat) by reflexivity.
  split; [exact two_layout|]. rewrite M. split; [cbn; lra|]. intros E vol.
  assert (ez : 0 < 1e-16 < 1/1000) by lra. set (e := 1e-16) in *.
  destruct (tip_update T E (fun _ => 1) vol 2 pts s 0 two_layout) as (lim & A & B & _ & F).
  { exact (proj1 ez). } { change (0 < 1 + e). lra. } { rewrite M. cbn. lia. }
  { intros i _. change (0 <= 1/4 < 1 - e). lra. } { intros i _. change (0 <= 1 * 1 * 1). lra. }
  { rewrite M. cbn. lra. }
  rewrite M in F. eapply Rge_trans; [apply Req_ge; exact F|]. clear F.
  assert (TT : total (fun i : nat * nat => m_vf s (fst i) (snd i)) [(0%nat, 0%nat); (1%nat, 0%nat)] = 1/2) by (cbn; lra).
  assert (CT : total (compliance (t_fuzz T) (fun i : nat * nat => m_vf s (fst i) (snd i))
      (fun i : nat * nat => m_rho s (fst i) (snd i) * m_sspd s (fst i) (snd i) * m_sspd s (fst i) (snd i))) [(0%nat, 0%nat); (1%nat, 0%nat)]
      = 1 / 2 / (1 + e)).
  { unfold total, fold_right, compliance. cbn [fst snd]. change (t_fuzz T) with e.
    change (1/4 / (1 * 1 * 1 + e) + (1/4 / (1 * 1 * 1 + e) + 0) = 1/2/(1+e)). field. lra. }
  assert (MP : mean_pressure (t_fuzz T) (fun i : nat * nat => m_vf s (fst i) (snd i))
      (fun i : nat * nat => m_rho s (fst i) (snd i) * m_sspd s (fst i) (snd i) * m_sspd s (fst i) (snd i))
      (fun i : nat * nat => m_pres s (fst i) (snd i)) [(0%nat, 0%nat); (1%nat, 0%nat)] = 0).
  { unfold mean_pressure. rewrite CT. change (t_fuzz T) with e.
    assert (Z : total (fun i : nat * nat => compliance e (fun i0 : nat * nat => m_vf s (fst i0) (snd i0))
      (fun i0 : nat * nat => m_rho s (fst i0) (snd i0) * m_sspd s (fst i0) (snd i0) * m_sspd s (fst i0) (snd i0)) i * m_pres s (fst i) (snd i))
      [(0%nat, 0%nat); (1%nat, 0%nat)] = 0).
    { unfold total, fold_right. change (m_pres s _ _) with 0. ring. }
    rewrite Z. unfold Rdiv. ring. }
  rewrite TT, CT, MP. change (t_fuzz T) with e. change (t_c1 T) with 1. change (t_alpha T) with 1. change (t_dt T) with 1.
  (* a limiter of one half is allowed *)
  assert (Q : 0 < 1/2/(1+e) + e) by (assert (0 < /(1+e)) by (apply Rinv_0_lt_compat; lra); lra).
  assert (Hr : 1/4 / (1+e) / (1/2/(1+e) + e) <= 1/2).
  { apply div_le; [exact Q|].
    assert (X : 1/4/(1+e) = 1/2 * (1/2/(1+e))) by (field; lra). rewrite X. lra. }
  assert (Hr0 : 1/2 - e*2 <= 1/4 / (1+e) / (1/2/(1+e) + e)).
  { apply le_div; [exact Q|].
    assert (I1 : 1 - e <= /(1+e)).
    { apply Rmult_le_reg_r with (1+e); [lra|]. rewrite Rinv_l by lra. nra. }
    assert (I2 : /(1+e) <= 1).
    { rewrite <- Rinv_1. apply Rinv_le_contravar; lra. }
    replace (1/2/(1+e)) with (1/2 * /(1+e)) by reflexivity. replace (1/4/(1+e)) with (1/4 * /(1+e)) by reflexivity.
    set (y := /(1+e)) in *. nra. }
  assert (LB : 1/2 <= lim).
  { apply (proj2 B). split; [lra|]. intros i j _ _. change (m_vf s (fst j) (snd j)) with (1/4).
    assert (PM : Rmin 1 (Rmax 0 (t_c0 T)) = 1) by (change (t_c0 T) with 1; rewrite Rmax_right, Rmin_left by lra; lra).
    rewrite PM. unfold wanted_change. rewrite M, CT, MP.
    change (t_fuzz T) with e. change (t_c1 T) with 1. change (t_alpha T) with 1. change (t_dt T) with 1.
    assert (CI : compliance e (fun i0 : nat * nat => m_vf s (fst i0) (snd i0))
      (fun i0 : nat * nat => m_rho s (fst i0) (snd i0) * m_sspd s (fst i0) (snd i0) * m_sspd s (fst i0) (snd i0)) i = 1/4/(1+e)).
    { unfold compliance. change (1/4 / (1 * 1 * 1 + e) = 1/4/(1+e)). field. lra. }
    rewrite CI. change (m_pres s (fst i) (snd i)) with 0. change (m_vf s (fst i) (snd i)) with (1/4).
    set (r := 1/4 / (1+e) / (1/2/(1+e) + e)) in *.
    replace (1 / 4 / (1 + e) * (0 - 0) / (1 + e) + (r - 1 / 4) * 1 * 1 * 1) with (r - 1/4) by (field; lra).
    rewrite Rabs_right by lra. lra. }
  assert (Hq : e / (1/2/(1+e) + e) <= 1/50).
  { apply div_le; [exact Q|].
    assert (I1 : 1 - e <= /(1+e)).
    { apply Rmult_le_reg_r with (1+e); [lra|]. rewrite Rinv_l by lra. nra. }
    replace (1/2/(1+e)) with (1/2 * /(1+e)) by reflexivity. lra. }
  assert (L1 : lim <= 1) by apply B.
  set (h := e / (1/2/(1+e) + e)) in *.
  replace (e * 0 / (1 + e)) with 0 by (field; lra). nra.
Qed.

Lemma tip_pure T E div vol nmats pts s : layout_ok nmats pts ->
  forall g i, In i (mats_at nmats pts g) -> 1 - t_fuzz T <= m_vf s (fst i) (snd i) <= 1 -> 0 <= m_vf s (fst i) (snd i) ->
  let s' := equilibrate T E div vol nmats pts s in
  m_vf s' (fst i) (snd i) = m_vf s (fst i) (snd i) /\ m_sie s' (fst i) (snd i) = m_sie s (fst i) (snd i).
Proof. intros HL g i. exact (equilibrate_pure T E div vol nmats pts s HL g i). Qed.

Lemma tip_direction T E div vol nmats pts s g :
  layout_ok nmats pts -> 0 < t_fuzz T -> 0 < t_c1 T + t_fuzz T -> div g = 0 ->
  let l := mats_at nmats pts g in
  let f := fun i => m_vf s (fst i) (snd i) in
  let f' := fun i => m_vf (equilibrate T E div vol nmats pts s) (fst i) (snd i) in
  let K := fun i => m_rho s (fst i) (snd i) * m_sspd s (fst i) (snd i) * m_sspd s (fst i) (snd i) in
  let p := fun i => m_pres s (fst i) (snd i) in
  (2 <= length l)%nat -> (forall i, In i l -> 0 <= f i < 1 - t_fuzz T) -> (forall i, In i l -> 0 <= K i) -> total f l <= 1 ->
  forall i, In i l ->
    (mean_pressure (t_fuzz T) f K p l <= p i -> f i <= f' i) /\
    (p i <= mean_pressure (t_fuzz T) f K p l -> f' i <= f i).
Proof.
  intros HL Hf Hc Hd l f f' K p H2 Hm HK HS i Hi.
  destruct (tip_update T E div vol nmats pts s g HL Hf Hc H2 Hm HK HS) as (lim & A & _ & D & _).
  assert (FE : f' i = _) by exact (D i Hi). rewrite FE. fold l f K p. change (m_vf s (fst i) (snd i)) with (f i). unfold wanted_change. rewrite Hd.
  assert (R0 : 0 <= compliance (t_fuzz T) f K i).
  { unfold compliance. apply Rmult_le_pos; [apply (Hm i Hi)|]. left. apply Rinv_0_lt_compat. specialize (HK i Hi). lra. }
  set (R_ := compliance (t_fuzz T) f K i) in *. set (m := mean_pressure (t_fuzz T) f K p l).
  assert (I0 : 0 < / (t_c1 T + t_fuzz T)) by (now apply Rinv_0_lt_compat).
  set (z := (_ - f i) * 0 * _ * _). assert (Z : z = 0) by (unfold z; ring). rewrite Z.
  replace (lim * (R_ * (p i - m) / (t_c1 T + t_fuzz T) + 0)) with (lim * R_ * / (t_c1 T + t_fuzz T) * (p i - m)) by (unfold Rdiv; ring).
  assert (C0 : 0 <= lim * R_ * / (t_c1 T + t_fuzz T)) by (apply Rmult_le_pos; [apply Rmult_le_pos; assumption|lra]).
  set (c := lim * R_ * / (t_c1 T + t_fuzz T)) in *.
  split; intros H.
  - assert (0 <= c * (p i - m)) by (apply Rmult_le_pos; lra). lra.
  - assert (0 <= c * (m - p i)) by (apply Rmult_le_pos; lra). lra.
Qed.

Lemma filter_perm {A} (h : A -> bool) l l' : Permutation l l' -> Permutation (filter h l) (filter h l').
Proof.
  induction 1; cbn; auto.
  - destruct (h x); [now constructor|assumption].
  - destruct (h x), (h y); try reflexivity. apply perm_swap.
  - etransitivity; eassumption.
Qed.

Lemma mats_at_perm nmats pts pts' g : (forall mat, Permutation (pts mat) (pts' mat)) ->
  Permutation (mats_at nmats pts g) (mats_at nmats pts' g).
Proof.
  intros H. unfold mats_at. induction (seq 0 nmats) as [|m l IH]; [constructor|]. cbn. apply Permutation_app; [|exact IH].
  apply Permutation_map, filter_perm, H.
Qed.

Lemma layout_perm nmats pts pts' : (forall mat, Permutation (pts mat) (pts' mat)) -> layout_ok nmats pts -> layout_ok nmats pts'.
Proof.
  intros H HL mat Hm. destruct (HL mat Hm) as [A B].
  split; (eapply Permutation_NoDup; [apply Permutation_map, H|assumption]).
Qed.

Lemma greatest_unique P x y : greatest P x -> greatest P y -> x = y.
Proof. intros [A B] [C D]. apply Rle_antisym; auto. Qed.

Lemma greatest_ext P Q x : (forall y, P y <-> Q y) -> greatest P x -> greatest Q x.
Proof. intros H [A B]. split; [now apply H|]. intros y Hy. apply B. now apply H. Qed.

Lemma total_perm {A} (h : A -> R) l l' : Permutation l l' -> total h l = total h l'.
Proof. exact (@suml_perm A h l l'). Qed.

Lemma tip_order T E E' div vol nmats pts pts' s g :
  layout_ok nmats pts -> 0 < t_fuzz T -> 0 < t_c1 T + t_fuzz T ->
  (forall mat, Permutation.Permutation (pts mat) (pts' mat)) ->
  let l := mats_at nmats pts g in
  (2 <= length l)%nat -> (forall i, In i l -> 0 <= m_vf s (fst i) (snd i) < 1 - t_fuzz T) ->
  (forall i, In i l -> 0 <= m_rho s (fst i) (snd i) * m_sspd s (fst i) (snd i) * m_sspd s (fst i) (snd i)) ->
  total (fun i => m_vf s (fst i) (snd i)) l <= 1 ->
  forall i, In i l ->
    m_vf (equilibrate T E div vol nmats pts s) (fst i) (snd i) = m_vf (equilibrate T E' div vol nmats pts' s) (fst i) (snd i).
Proof.
  intros HL Hf Hc HP l H2 Hm HK HS i Hi.
  assert (P : Permutation l (mats_at nmats pts' g)) by (apply mats_at_perm, HP).
  set (l' := mats_at nmats pts' g) in *.
  assert (HL' := layout_perm _ _ _ HP HL).
  destruct (tip_update T E div vol nmats pts s g HL Hf Hc H2 Hm HK HS) as (lim & _ & B & D & _).
  destruct (tip_update T E' div vol nmats pts' s g HL' Hf Hc) as (lim' & _ & B' & D' & _).
  { fold l'. now rewrite <- (Permutation_length P). }
  { intros j Hj. apply Hm. eapply Permutation_in; [symmetry; exact P|exact Hj]. }
  { intros j Hj. apply HK. eapply Permutation_in; [symmetry; exact P|exact Hj]. }
  { fold l'. rewrite <- (total_perm _ _ _ P). exact HS. }
  rewrite (D i Hi). rewrite (D' i) by (eapply Permutation_in; [exact P|exact Hi]).
  fold l l' in B, B', D, D' |- *.
  set (f := fun i0 : nat * nat => m_vf s (fst i0) (snd i0)) in *.
  set (K := fun i0 : nat * nat => m_rho s (fst i0) (snd i0) * m_sspd s (fst i0) (snd i0) * m_sspd s (fst i0) (snd i0)) in *.
  set (p := fun i0 : nat * nat => m_pres s (fst i0) (snd i0)) in *.
  assert (WE : forall j, wanted_change (t_fuzz T) (t_c1 T) (div g) (t_alpha T) (t_dt T) f K p l j =
                         wanted_change (t_fuzz T) (t_c1 T) (div g) (t_alpha T) (t_dt T) f K p l' j).
  { intros j. unfold wanted_change, mean_pressure. now rewrite !(total_perm _ _ _ P). }
  rewrite (WE i). f_equal. f_equal. eapply greatest_unique; [exact B|].
  eapply greatest_ext; [|exact B']. intros y. unfold allowed. split; intros [Y1 Y2]; (split; [exact Y1|]); intros a b Ha Hb.
  - rewrite WE. apply Y2; (eapply Permutation_in; [exact P|assumption]).
  - rewrite <- WE. apply Y2; (eapply Permutation_in; [symmetry; exact P|assumption]).
Qed.

Lemma tip_rho T E div vol nmats pts s : layout_ok nmats pts ->
  let s' := equilibrate T E div vol nmats pts s in
  m_mass s' = m_mass s /\ m_vfin s' = m_vfin s /\
  (forall g i, In i (mats_at nmats pts g) ->
    m_rho s' (fst i) (snd i) = m_mass s (fst i) (snd i) / (vol g * m_vf s' (fst i) (snd i) * m_vfin s' (fst i) (snd i) + 1e-20)) /\
  (forall i, (forall g, ~ In i (mats_at nmats pts g)) ->
  m_vf s' (fst i) (snd i) = m_vf s (fst i) (snd i) /\ m_sie s' (fst i) (snd i) = m_sie s (fst i) (snd i) /\
  m_rho s' (fst i) (snd i) = m_rho s (fst i) (snd i)).
Proof.
  intros HL. unfold equilibrate. rewrite change_flat.
  assert (N := flat_nodup _ _ HL).
  assert (C := change_fold T div vol nmats pts s (flat nmats pts) s (divide_averages (t_fuzz T) (build_averages (t_fuzz T) s nmats pts))).
  destruct (fold_left (cs T div) (flat nmats pts) _) as [s1 w1].
  destruct C as (C1 & C2 & C3 & C4 & C5).
  { repeat split. } { repeat split. } { exact N. }
  destruct C1 as (E1 & E2 & E3 & E4 & E5 & E6 & E7).
  rewrite update_flat. destruct (update_fold E vol w1 (flat nmats pts) s1 N) as (U1 & U2 & U3 & U4).
  set (s' := fold_left (us E vol w1) (flat nmats pts) s1) in *. cbn zeta.
  split; [now rewrite U2|]. split; [now rewrite U1|]. split.
  - intros g i Hi. destruct (proj1 (in_mats_at nmats pts g i) Hi) as (q & Hq & Hg & Hk). subst i. cbn [fst snd].
    destruct (U3 q Hq) as (V1 & V2 & V3 & V4). cbn zeta in V1, V4. rewrite V4, V1, U1, E7, Hg. reflexivity.
  - intros i Hi. destruct (U4 i) as (V1 & V2 & V3 & V4).
    { intros X. apply in_map_iff in X as (q & Hk & Hq). apply (Hi (fst (snd q))). apply in_mats_at. eauto. }
    rewrite V1, V3, V4, E1, E5, E4. auto.
Qed.

Lemma tip_mass T E div vol nmats pts s : layout_ok nmats pts -> 0 < t_fuzz T ->
  let s' := equilibrate T E div vol nmats pts s in
  m_mass s' = m_mass s /\ m_vfin s' = m_vfin s /\
  forall g i, In i (mats_at nmats pts g) ->
    let v := vol g * m_vf s' (fst i) (snd i) * m_vfin s' (fst i) (snd i) in
    0 <= v -> m_rho s' (fst i) (snd i) * (v + 1e-20) = m_mass s (fst i) (snd i).
Proof.
  intros HL _ s'. destruct (tip_rho T E div vol nmats pts s HL) as (A & B & C & _). split; [exact A|]. split; [exact B|].
  intros g i Hi v Hv. unfold s'. rewrite (C g i Hi). fold s'. fold v. field. assert (0 < 1e-20) by lra. lra.
Qed.

Lemma tip_frame T E div vol nmats pts s : layout_ok nmats pts ->
  let s' := equilibrate T E div vol nmats pts s in
  forall i, (forall g, ~ In i (mats_at nmats pts g)) ->
  m_vf s' (fst i) (snd i) = m_vf s (fst i) (snd i) /\ m_sie s' (fst i) (snd i) = m_sie s (fst i) (snd i) /\
  m_rho s' (fst i) (snd i) = m_rho s (fst i) (snd i).
Proof. intros HL s'. apply (tip_rho T E div vol nmats pts s HL). Qed.

Lemma tip_energy T E div vol nmats pts s g : layout_ok nmats pts -> 0 < t_fuzz T ->
  let s' := equilibrate T E div vol nmats pts s in
  let l := mats_at nmats pts g in
  let f := fun i => m_vf s (fst i) (snd i) in
  let K := fun i => m_rho s (fst i) (snd i) * m_sspd s (fst i) (snd i) * m_sspd s (fst i) (snd i) in
  let p := fun i => m_pres s (fst i) (snd i) in
  (forall i, In i l -> 0 <= f i < 1 - t_fuzz T) -> (forall i, In i l -> 0 <= m_mass s (fst i) (snd i)) ->
  total (fun i => (m_mass s (fst i) (snd i) + 1e-20) * (m_sie s' (fst i) (snd i) - m_sie s (fst i) (snd i))) l =
  - mean_pressure (t_fuzz T) f K p l *
    (vol g * total (fun i => (m_vf s' (fst i) (snd i) - m_vf s (fst i) (snd i)) * m_vfin s (fst i) (snd i)) l).
Proof.
  intros HL Hf s' l f K p Hm HM. rewrite <- Rmult_assoc. exact (equilibrate_energy T E div vol nmats pts s HL Hf g Hm HM).
Qed.

Lemma tip_nonvacuous :
  let s := mkM (fun m _ => match m with O => 1/4 | _ => 3/4 end) (fun _ _ => 0) (fun _ _ => 1)
               (fun m _ => match m with O => 2 | _ => 1 end) (fun _ _ => 1) (fun _ _ => 1) (fun _ _ => 1) (fun _ _ => 1) in
  let pts := fun _ : nat => [(0, 0)]%nat in
  layout_ok 2 pts /\ (length (mats_at 2 pts 0) = 2)%nat /\
  (forall i, In i (mats_at 2 pts 0) -> 0 <= m_vf s (fst i) (snd i) < 1 - 1e-16) /\
  total (fun i => m_vf s (fst i) (snd i)) (mats_at 2 pts 0) = 1.
Proof.
  intros s pts. split; [exact two_layout|]. assert (M : mats_at 2 pts 0 = [(0, 0); (1, 0)]%nat) by reflexivity. rewrite M.
  assert (ez : 0 < 1e-16 < 1/1000) by lra.
  split; [reflexivity|]. split.
  - intros i [<-|[<-|[]]]; cbn [fst snd m_vf s]; lra.
  - cbn. lra.
Qed.
