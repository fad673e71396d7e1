(** C59: the fields in the graphics files are the averages, sums and values the user asked for. *)
From Coq Require Import Reals String Permutation Lra.
From Verif Require Import BaseArr BaseReal.
From Verif Require Import SghModel SghSpec SghProofs FieldModel FieldSpec FieldProofs FieldMore.
Open Scope R_scope.

Definition masses_nonneg (L : layout) (Q : nat -> nat -> mpoint) : Prop := forall p, In p (points L) -> 0 <= q_mass (Q (fst p) (snd p)).

(** *** The words of the input file *)
Lemma words_spec {F} (word : string -> option F) ws : forall acc fs, for_each ws (fun w fs => obind (word w) (fun f => Some (fs ++ [f])%list)) acc = Some fs <->
  exists l, fs = (acc ++ l)%list /\ Forall2 (fun w f => word w = Some f) ws l.
Proof.
  induction ws as [|w ws IH]; intros acc fs; cbn [for_each].
  - split; [intros H; injection H as <-; exists []; rewrite app_nil_r; auto|]. intros (l & -> & H). inversion H. rewrite app_nil_r. reflexivity.
  - destruct (word w) as [f|] eqn:E; cbn [obind].
    + rewrite IH. split.
      * intros (l & -> & H). exists (f :: l). rewrite <- app_assoc. split; [reflexivity|constructor; assumption].
      * intros (l & -> & H). inversion H; subst. assert (y = f) by congruence. subst. exists l'. rewrite <- app_assoc. auto.
    + split; [discriminate|]. intros (l & _ & H). inversion H; subst. congruence.
Qed.
Lemma forall2_nodup {F} (word : string -> option F) : (forall w w' f, word w = Some f -> word w' = Some f -> w = w') ->
  forall ws l, Forall2 (fun w f => word w = Some f) ws l -> NoDup ws -> NoDup l.
Proof.
  intros Hinj ws l H. induction H as [|w f ws l Hw H IH]; intros Hn; [constructor|]. inversion Hn; subst. constructor; [|apply IH; assumption].
  intros Hin. apply H2. clear - H Hin Hw Hinj. induction H as [|w' f' ws l Hw' H IH]; [contradiction|]. destruct Hin as [->|Hin]; [left; exact (Hinj _ _ _ Hw' Hw)|right; apply IH; exact Hin].
Qed.
Lemma elem_word_inj w w' f : elem_word w = Some f -> elem_word w' = Some f -> w = w'.
Proof.
  unfold elem_word. repeat match goal with |- context [string_dec ?a ?b] => destruct (string_dec a b) end; intros; congruence.
Qed.
Lemma existsb_sie fs f : existsb (efield_eqb f) fs = true <-> In f fs.
Proof.
  rewrite existsb_exists. split; [intros (x & Hx & He); destruct f, x; try discriminate; assumption|]. intros H. exists f. split; [exact H|]. destruct f; reflexivity.
Qed.

(** The element fields written are those named in the input, in that order; the mass is added at the end when it is needed for the specific
    internal energy and not named.  An unknown name ends the run. *)
Theorem C59_parse ws : 
  (parse_elem ws = None <-> exists w, In w ws /\ elem_word w = None) /\
  forall fs, parse_elem ws = Some fs -> (In Sie fs -> In Mass fs) /\ (NoDup ws -> NoDup fs) /\
    exists l, Forall2 (fun w f => elem_word w = Some f) ws l /\ (fs = l \/ fs = (l ++ [Mass])%list /\ In Sie l /\ ~ In Mass l).
Proof.
  split.
  - unfold parse_elem, words. enough (H : forall acc, option_map with_mass (for_each ws (fun w fs => obind (elem_word w) (fun f => Some (fs ++ [f])%list)) acc) = None <-> exists w, In w ws /\ elem_word w = None) by apply H.
    induction ws as [|w ws IH]; intros acc; cbn [for_each].
    + split; [discriminate|intros (w & [] & _)].
    + destruct (elem_word w) as [f|] eqn:E; cbn [obind].
      * rewrite IH. split; [intros (w' & Hw & H'); exists w'; split; [right; exact Hw|exact H']|]. intros (w' & [->|Hw] & H'); [congruence|exists w'; auto].
      * split; [intros _; exists w; split; [left; reflexivity|exact E]|reflexivity].
  - intros fs H. unfold parse_elem, words in H.
    destruct (for_each ws _ []) as [l|] eqn:E; [|discriminate]. cbn in H. injection H as <-. apply words_spec in E. destruct E as (l' & -> & Hl). cbn [app].
    pose proof (existsb_sie l' Sie) as HS. pose proof (existsb_sie l' Mass) as HM. unfold with_mass.
    destruct (existsb (efield_eqb Sie) l') eqn:ES, (existsb (efield_eqb Mass) l') eqn:EM; cbn [andb negb].
    + split; [intros _; apply HM; reflexivity|]. split; [intros Hn; apply (forall2_nodup elem_word elem_word_inj ws); assumption|]. exists l'. auto.
    + split; [intros _; apply in_or_app; right; left; reflexivity|].
      assert (Hno : ~ In Mass l') by (intros Hin; apply HM in Hin; discriminate).
      split; [|exists l'; split; [exact Hl|right; split; [reflexivity|split; [apply HS; reflexivity|exact Hno]]]].
      intros Hn. apply nodup_app; [apply (forall2_nodup elem_word elem_word_inj ws); assumption|repeat constructor; intros []|]. intros x Hx [<-|[]]. contradiction.
    + assert (Hno : ~ In Sie l') by (intros Hin; apply HS in Hin; discriminate). split; [contradiction|]. split; [intros Hn; apply (forall2_nodup elem_word elem_word_inj ws); assumption|]. exists l'. auto.
    + assert (Hno : ~ In Sie l') by (intros Hin; apply HS in Hin; discriminate). split; [contradiction|]. split; [intros Hn; apply (forall2_nodup elem_word elem_word_inj ws); assumption|]. exists l'. auto.
Qed.
Print Assumptions C59_parse.

(** *** Element fields *)
Section E.
Variables (ne : nat) (L : layout) (Q : nat -> nat -> mpoint) (V : elemv) (fs : list efield) (gs : list gfield) (sched : nat -> efield -> list nat).

Definition eshow (f : efield) (e i j : nat) : R :=
  if efield_dec f Sie then total L Q (fun q => term f q i j) e / (total L Q q_mass e + 1e-20) else total L Q (fun q => term f q i j) e.
Lemma total_ext v v' e : (forall q, v q = v' q) -> total L Q v e = total L Q v' e.
Proof. intros H. unfold total. apply suml_ext. intros; apply H. Qed.
Lemma total_nonneg e : masses_nonneg L Q -> 0 <= total L Q q_mass e.
Proof. intros H. apply suml_nonneg. intros p Hp. apply H. apply filter_In in Hp. apply Hp. Qed.

Lemma escal_cols : forall k name v, nth_error (flat_map (elem_scalar L Q) fs) k = Some (name, v) ->
  exists f, nth_error (ecl fs false) k = Some f /\ name = ename f /\ forall e, v e = eshow f e 0 0.
Proof.
  unfold ecl. induction fs as [|f l IH]; intros k name v H; [destruct k; discriminate|].
  destruct f; cbn [flat_map elem_scalar app filter tensor_field Bool.eqb] in *; try (apply IH; exact H);
    (destruct k as [|k]; [injection H as <- <-; eexists; split; [reflexivity|]; split; [reflexivity|]; intros e; unfold eshow; cbn [efield_dec efield_rec efield_rect term];
       repeat (destruct (efield_dec _ _); try discriminate; try congruence); try apply total_ext; try (intros q; unfold frac; ring); try reflexivity|apply IH; exact H]).
Qed.
Lemma escal_len : length (flat_map (elem_scalar L Q) fs) = length (ecl fs false).
Proof. unfold ecl. induction fs as [|f l IH]; [reflexivity|]. destruct f; cbn [flat_map elem_scalar app filter tensor_field Bool.eqb length]; rewrite ?IH; reflexivity. Qed.
Lemma etens_cols : forall k name v, nth_error (flat_map (elem_tensor L Q) fs) k = Some (name, v) ->
  exists f, nth_error (ecl fs true) k = Some f /\ name = ename f /\ forall e i j, v e i j = eshow f e i j.
Proof.
  unfold ecl. induction fs as [|f l IH]; intros k name v H; [destruct k; discriminate|].
  destruct f; cbn [flat_map elem_tensor app filter tensor_field Bool.eqb] in *; try (apply IH; exact H).
  destruct k as [|k]; [injection H as <- <-; eexists; split; [reflexivity|]; split; [reflexivity|]|apply IH; exact H].
  intros e i j. unfold eshow. destruct (efield_dec Stress Sie); [discriminate|]. apply total_ext. intros q. unfold frac. cbn [term]. ring.
Qed.
Lemma etens_len : length (flat_map (elem_tensor L Q) fs) = length (ecl fs true).
Proof. unfold ecl. induction fs as [|f l IH]; [reflexivity|]. destruct f; cbn [flat_map elem_tensor app filter tensor_field Bool.eqb length]; rewrite ?IH; reflexivity. Qed.
Lemma gscal_cols : forall k name v, nth_error (flat_map (gauss_scalar V) gs) k = Some (name, v) ->
  exists g, nth_error (gcl gs false) k = Some g /\ name = gname g /\ forall e, v e = gval V g e 0 0.
Proof.
  unfold gcl. induction gs as [|g l IH]; intros k name v H; [destruct k; discriminate|].
  destruct g; cbn [flat_map gauss_scalar app filter tensor_gfield Bool.eqb] in *; try (apply IH; exact H);
    (destruct k as [|k]; [injection H as <- <-; eexists; split; [reflexivity|]; split; [reflexivity|reflexivity]|apply IH; exact H]).
Qed.
Lemma gscal_len : length (flat_map (gauss_scalar V) gs) = length (gcl gs false).
Proof. unfold gcl. induction gs as [|f l IH]; [reflexivity|]. destruct f; cbn [flat_map gauss_scalar app filter tensor_gfield Bool.eqb length]; rewrite ?IH; reflexivity. Qed.
Lemma gtens_cols : forall k name v, nth_error (flat_map (gauss_tensor V) gs) k = Some (name, v) ->
  exists g, nth_error (gcl gs true) k = Some g /\ name = gname g /\ forall e i j, v e i j = gval V g e i j.
Proof.
  unfold gcl. induction gs as [|g l IH]; intros k name v H; [destruct k; discriminate|].
  destruct g; cbn [flat_map gauss_tensor app filter tensor_gfield Bool.eqb] in *; try (apply IH; exact H);
    (destruct k as [|k]; [injection H as <- <-; eexists; split; [reflexivity|]; split; [reflexivity|reflexivity]|apply IH; exact H]).
Qed.
Lemma gtens_len : length (flat_map (gauss_tensor V) gs) = length (gcl gs true).
Proof. unfold gcl. induction gs as [|f l IH]; [reflexivity|]. destruct f; cbn [flat_map gauss_tensor app filter tensor_gfield Bool.eqb length]; rewrite ?IH; reflexivity. Qed.

Lemma nodup_slot_e sl b k f : NoDup fs -> slots_ok fs gs sl -> nth_error (ecl fs b) k = Some f -> slot_of sl (E f) = k.
Proof.
  intros Hn Hok Hk. destruct (ecl_in _ _ _ _ Hk) as [Hin Hb]. destruct (so_e _ _ _ Hok f Hin) as (k' & Hid & Hl & _). unfold slot_of. rewrite Hid. rewrite Hb in Hl.
  apply (proj1 (NoDup_nth_error (ecl fs b))); [apply NoDup_filter; exact Hn|apply nth_error_Some; congruence|congruence].
Qed.
Lemma nodup_slot_g sl b k g : NoDup gs -> slots_ok fs gs sl -> nth_error (gcl gs b) k = Some g -> slot_of sl (G g) = (length (ecl fs b) + k)%nat.
Proof.
  intros Hn Hok Hk. destruct (gcl_in _ _ _ _ Hk) as [Hin Hb]. destruct (so_g _ _ _ Hok g Hin) as (k' & Hid & Hl & _). unfold slot_of. rewrite Hid. rewrite Hb in *. f_equal.
  apply (proj1 (NoDup_nth_error (gcl gs b))); [apply NoDup_filter; exact Hn|apply nth_error_Some; congruence|congruence].
Qed.
End E.

(** Named once each, the element fields show: volume averages of density, pressure, sound speed and stress; the sum of the masses; the mass
    average of the specific internal energy; the volume, level set and velocity gradient of the element.  Every column carries its name. *)
Theorem C59_elem ne L Q V fs gs sched : layout_ok ne L -> elem_sched L sched -> (0 < num_mats L)%nat -> NoDup fs -> NoDup gs ->
  (In Sie fs -> In Mass fs) -> masses_nonneg L Q ->
  exists o, elem_fields ne L Q V fs gs sched = Some o /\
    shows_scalars (ef_names o) (ef_scalars o) ne (flat_map (elem_scalar L Q) fs ++ flat_map (gauss_scalar V) gs) /\
    shows_tensors (ef_tnames o) (ef_tensors o) ne (flat_map (elem_tensor L Q) fs ++ flat_map (gauss_tensor V) gs).
Proof.
  intros HL Hs Hm Hnf Hng Hsm Hpos.
  assert (Hcnt : forall f, In f fs -> count_occ efield_dec fs f = 1%nat) by (intros f Hf; apply NoDup_count_occ'; assumption).
  destruct (elem_fields_spec ne L Q V fs gs sched HL Hs Hm Hsm) as (o & sl & Eo & Hok & En & Et & R1 & R2 & H1 & H2 & H3 & H4).
  { intros HS e _. rewrite (Hcnt Mass (Hsm HS)). cbn [INR]. pose proof (total_nonneg L Q e Hpos). lra. }
  exists o. split; [exact Eo|].
  assert (Hraw : forall b k f e i j, nth_error (ecl fs b) k = Some f -> raw L Q fs sl f k e i j = total L Q (fun q => term f q i j) e).
  { intros b k f e i j Hk. unfold raw, mult. rewrite (nodup_slot_e fs gs sl b k f Hnf Hok Hk), Nat.eqb_refl, (Hcnt f (proj1 (ecl_in _ _ _ _ Hk))). cbn [INR]. ring. }
  assert (Hrow : forall b, nrow (names_of b sl) = (length (ecl fs b) + length (gcl gs b))%nat) by (intros b; apply (so_rows _ _ _ Hok b)).
  assert (Hname : forall b k nm, dat (names_of b sl) k 0 = Some nm -> (k < length (ecl fs b) + length (gcl gs b))%nat -> aget (names_of b sl) k 0 = Some nm).
  { intros b k nm Hd Hk. unfold aget. destruct (so_rows _ _ _ Hok b) as [Ha Hb]. rewrite Ha, Hb. unfold rows. rewrite (proj2 (Nat.ltb_lt _ _) Hk). exact Hd. }
  split.
  - unfold shows_scalars. rewrite app_length, escal_len, gscal_len, En, R1. split; [exact (Hrow false)|]. split; [reflexivity|]. intros k name v Hk.
    assert (Hlt : (k < length (ecl fs false) + length (gcl gs false))%nat) by (erewrite <- escal_len, <- gscal_len, <- app_length; apply nth_error_Some; rewrite Hk; discriminate).
    destruct (Nat.lt_ge_cases k (length (flat_map (elem_scalar L Q) fs))) as [Hl|Hl].
    + rewrite nth_error_app1 in Hk by exact Hl. apply escal_cols in Hk. destruct Hk as (f & Hk & -> & Hv). split; [apply (Hname false); [apply (so_ename _ _ _ Hok false k f Hk)|exact Hlt]|].
      intros e He. rewrite (H1 k f e Hk He), Hv, (Hraw false k f e 0%nat 0%nat Hk). unfold eshow. destruct (efield_dec f Sie) as [->|]; [|reflexivity].
      rewrite (Hcnt Mass (Hsm (proj1 (ecl_in _ _ _ _ Hk)))). cbn [INR]. rewrite Rmult_1_l. reflexivity.
    + rewrite nth_error_app2 in Hk by exact Hl. rewrite escal_len in *. apply gscal_cols in Hk. destruct Hk as (g & Hk & -> & Hv). pose proof (so_gname _ _ _ Hok false _ g Hk) as Hnm. replace (length (ecl fs false) + (k - length (ecl fs false)))%nat with k in Hnm by lia.
      split; [apply (Hname false); [exact Hnm|exact Hlt]|]. intros e He. destruct (gcl_in _ _ _ _ Hk) as [Hin Hb]. rewrite Hv, <- (H3 g e Hin Hb He). f_equal.
      rewrite (nodup_slot_g fs gs sl false _ g Hng Hok Hk). lia.
  - unfold shows_tensors. rewrite app_length, etens_len, gtens_len, Et, R2. split; [exact (Hrow true)|]. split; [reflexivity|]. intros k name v Hk.
    assert (Hlt : (k < length (ecl fs true) + length (gcl gs true))%nat) by (erewrite <- etens_len, <- gtens_len, <- app_length; apply nth_error_Some; rewrite Hk; discriminate).
    destruct (Nat.lt_ge_cases k (length (flat_map (elem_tensor L Q) fs))) as [Hl|Hl].
    + rewrite nth_error_app1 in Hk by exact Hl. apply etens_cols in Hk. destruct Hk as (f & Hk & -> & Hv). split; [apply (Hname true); [apply (so_ename _ _ _ Hok true k f Hk)|exact Hlt]|].
      intros e i j He Hi Hj. rewrite (H2 k f e i j Hk He Hi Hj), Hv, (Hraw true k f e i j Hk). unfold eshow. destruct (efield_dec f Sie) as [->|]; [|reflexivity].
      destruct (ecl_in _ _ _ _ Hk) as [_ Hb]. discriminate.
    + rewrite nth_error_app2 in Hk by exact Hl. rewrite etens_len in *. apply gtens_cols in Hk. destruct Hk as (g & Hk & -> & Hv). pose proof (so_gname _ _ _ Hok true _ g Hk) as Hnm. replace (length (ecl fs true) + (k - length (ecl fs true)))%nat with k in Hnm by lia.
      split; [apply (Hname true); [exact Hnm|exact Hlt]|]. intros e i j He Hi Hj. destruct (gcl_in _ _ _ _ Hk) as [Hin Hb]. rewrite Hv, <- (H4 g e i j Hin Hb He Hi Hj). f_equal.
      rewrite (nodup_slot_g fs gs sl true _ g Hng Hok Hk). lia.
Qed.
Print Assumptions C59_elem.

(** An element that is full shows a value between the least and the greatest of its materials. *)
Definition intensive (f : efield) (q : mpoint) : R := match f with Den => q_den q | Pres => q_pres q | Sspd => q_sspd q | _ => 0 end.
Theorem C59_between ne L Q V fs gs sched f e lo hi : layout_ok ne L -> elem_sched L sched -> (0 < num_mats L)%nat -> NoDup fs -> NoDup gs ->
  (In Sie fs -> In Mass fs) -> masses_nonneg L Q -> (e < ne)%nat ->
  f = Den \/ f = Pres \/ f = Sspd -> In f fs ->
  (forall p, In p (points_in L e) -> 0 <= frac (Q (fst p) (snd p))) -> total L Q frac e = 1 ->
  (forall p, In p (points_in L e) -> lo <= intensive f (Q (fst p) (snd p)) <= hi) ->
  exists o k x, elem_fields ne L Q V fs gs sched = Some o /\ aget (ef_names o) k 0 = Some (ename f) /\ aget (ef_scalars o) k e = Some x /\ lo <= x <= hi.
Proof.
  intros HL Hs Hm Hnf Hng Hsm Hpos He Hf Hin Hfr H1 Hb.
  destruct (C59_elem ne L Q V fs gs sched HL Hs Hm Hnf Hng Hsm Hpos) as (o & Eo & (_ & _ & Hk) & _).
  assert (Hc : In (ename f, total L Q (fun q => frac q * intensive f q)) (flat_map (elem_scalar L Q) fs ++ flat_map (gauss_scalar V) gs)).
  { apply in_or_app. left. apply in_flat_map. exists f. split; [exact Hin|]. destruct Hf as [->|[->| ->]]; left; reflexivity. }
  apply In_nth_error in Hc. destruct Hc as (k & Hc). destruct (Hk k _ _ Hc) as [Hn Hv]. exists o, k. eexists. split; [exact Eo|]. split; [exact Hn|]. split; [exact (Hv e He)|].
  unfold total in *. split.
  - replace lo with (lo * 1) by ring. rewrite <- H1, <- suml_scal. apply suml_le. intros p Hp. specialize (Hb p Hp). specialize (Hfr p Hp). nra.
  - replace hi with (hi * 1) by ring. rewrite <- H1, <- suml_scal. apply suml_le. intros p Hp. specialize (Hb p Hp). specialize (Hfr p Hp). nra.
Qed.
Print Assumptions C59_between.

(** The shown masses of the elements add up to the mass of all material points. *)
Theorem C59_total_mass ne L Q V fs gs sched : layout_ok ne L -> elem_sched L sched -> (0 < num_mats L)%nat -> NoDup fs -> NoDup gs ->
  (In Sie fs -> In Mass fs) -> masses_nonneg L Q -> In Mass fs ->
  exists o k m, elem_fields ne L Q V fs gs sched = Some o /\ aget (ef_names o) k 0 = Some "mass"%string /\
    (forall e, (e < ne)%nat -> aget (ef_scalars o) k e = Some (m e)) /\ sumn ne m = suml (fun p => q_mass (Q (fst p) (snd p))) (points L).
Proof.
  intros HL Hs Hm Hnf Hng Hsm Hpos Hin.
  destruct (C59_elem ne L Q V fs gs sched HL Hs Hm Hnf Hng Hsm Hpos) as (o & Eo & (_ & _ & Hk) & _).
  assert (Hc : In ("mass"%string, total L Q q_mass) (flat_map (elem_scalar L Q) fs ++ flat_map (gauss_scalar V) gs)).
  { apply in_or_app. left. apply in_flat_map. exists Mass. split; [exact Hin|left; reflexivity]. }
  apply In_nth_error in Hc. destruct Hc as (k & Hc). destruct (Hk k _ _ Hc) as [Hn Hv]. exists o, k, (total L Q q_mass). split; [exact Eo|]. split; [exact Hn|]. split; [exact Hv|].
  unfold total, points_in. apply (suml_by_key (fun p => q_mass (Q (fst p) (snd p))) (point_elem L) ne (points L)). exact HL.
Qed.
Print Assumptions C59_total_mass.

(** The mass average of the specific internal energy lies between 0 and the greatest of the materials. *)
Theorem C59_energy ne L Q V fs gs sched e hi : layout_ok ne L -> elem_sched L sched -> (0 < num_mats L)%nat -> NoDup fs -> NoDup gs ->
  In Sie fs -> In Mass fs -> masses_nonneg L Q -> (e < ne)%nat -> 0 <= hi -> (forall p, In p (points_in L e) -> 0 <= q_sie (Q (fst p) (snd p)) <= hi) ->
  exists o k x, elem_fields ne L Q V fs gs sched = Some o /\ aget (ef_names o) k 0 = Some "sie"%string /\ aget (ef_scalars o) k e = Some x /\ 0 <= x <= hi.
Proof.
  intros HL Hs Hm Hnf Hng Hsi Hma Hpos He Hhi Hb.
  destruct (C59_elem ne L Q V fs gs sched HL Hs Hm Hnf Hng (fun _ => Hma) Hpos) as (o & Eo & (_ & _ & Hk) & _).
  assert (Hc : In ("sie"%string, fun e => total L Q (fun q => q_mass q * q_sie q) e / (total L Q q_mass e + 1e-20)) (flat_map (elem_scalar L Q) fs ++ flat_map (gauss_scalar V) gs)).
  { apply in_or_app. left. apply in_flat_map. exists Sie. split; [exact Hsi|left; reflexivity]. }
  apply In_nth_error in Hc. destruct Hc as (k & Hc). destruct (Hk k _ _ Hc) as [Hn Hv]. exists o, k. eexists. split; [exact Eo|]. split; [exact Hn|]. split; [exact (Hv e He)|].
  pose proof (total_nonneg L Q e Hpos) as HM. cbv beta. set (M := total L Q q_mass e) in *.
  assert (Hm1 : 0 <= total L Q (fun q => q_mass q * q_sie q) e <= hi * M).
  { unfold M, total. split.
    - apply suml_nonneg. intros p Hp. specialize (Hb p Hp). specialize (Hpos p). unfold points_in in Hp. apply filter_In in Hp. specialize (Hpos (proj1 Hp)). nra.
    - rewrite <- suml_scal. apply suml_le. intros p Hp. specialize (Hb p Hp). specialize (Hpos p). unfold points_in in Hp. apply filter_In in Hp. specialize (Hpos (proj1 Hp)). nra. }
  set (N := total L Q (fun q => q_mass q * q_sie q) e) in *. assert (Hd : 0 < M + 1e-20) by lra. split.
  - apply Rmult_le_pos; [apply Hm1|]. left. apply Rinv_0_lt_compat. exact Hd.
  - apply (Rmult_le_reg_r (M + 1e-20)); [exact Hd|]. unfold Rdiv. rewrite Rmult_assoc, Rinv_l by lra. nra.
Qed.
Print Assumptions C59_energy.

(** *** A field that is named twice: the full statement without NoDup is false.  The first column shows zero everywhere and the last one the sum
    of all repetitions; naming the mass twice halves the shown energy. *)
Theorem C59_repeats ne L Q V fs gs sched : layout_ok ne L -> elem_sched L sched -> (0 < num_mats L)%nat -> (In Sie fs -> In Mass fs) -> masses_nonneg L Q ->
  exists o, elem_fields ne L Q V fs gs sched = Some o /\
    forall k name v, nth_error (flat_map (elem_scalar L Q) fs) k = Some (name, v) -> name <> "sie"%string -> forall e, (e < ne)%nat ->
      aget (ef_scalars o) k e = Some (
        if existsb (fun p => String.eqb (fst p) name) (skipn (S k) (flat_map (elem_scalar L Q) fs)) then 0
        else INR (length (filter (fun p => String.eqb (fst p) name) (flat_map (elem_scalar L Q) fs))) * v e).
Proof.
  intros HL Hs Hm Hsm Hpos.
  destruct (elem_fields_spec ne L Q V fs gs sched HL Hs Hm Hsm) as (o & sl & Eo & Hok & En & Et & R1 & R2 & H1 & _).
  { intros HS e _. pose proof (total_nonneg L Q e Hpos). pose proof (pos_INR (count_occ efield_dec fs Mass)). nra. }
  exists o. split; [exact Eo|]. intros k name v Hk Hns e He. destruct (escal_cols L Q fs k name v Hk) as (f & Hf & -> & Hv).
  rewrite (H1 k f e Hf He). assert (Hne : f <> Sie) by (intros ->; apply Hns; reflexivity). rewrite Hv. unfold eshow. destruct (efield_dec f Sie) as [|_]; [contradiction|].
  destruct (ecl_in _ _ _ _ Hf) as [Hin Hb]. unfold raw, mult.
  destruct (so_e _ _ _ Hok f Hin) as (k' & Hid & Hla & Hlb). rewrite Hb in Hla, Hlb. unfold slot_of. rewrite Hid.
  assert (Hinj : forall x y, ename x = ename y -> x = y) by (intros [] []; try reflexivity; discriminate).
  assert (Hcnt : forall l, length (filter (fun p => String.eqb (fst p) (ename f)) (flat_map (elem_scalar L Q) l)) = count_occ efield_dec l f).
  { intros l. induction l as [|x l IH]; [reflexivity|]. cbn [flat_map]. rewrite filter_app, app_length, IH. cbn [count_occ].
    destruct (efield_dec x f) as [->|Hx]; [|destruct f, x; try discriminate; try congruence; reflexivity]. destruct f; try discriminate; reflexivity. }
  rewrite Hcnt.
  assert (Hcol : forall k2, (k2 < length (flat_map (elem_scalar L Q) fs))%nat -> option_map fst (nth_error (flat_map (elem_scalar L Q) fs) k2) = option_map ename (nth_error (ecl fs false) k2)).
  { intros k2 Hk2. destruct (nth_error (flat_map (elem_scalar L Q) fs) k2) as [[nm w]|] eqn:E2; [|apply nth_error_None in E2; lia].
    destruct (escal_cols L Q fs k2 nm w E2) as (f2 & -> & -> & _). reflexivity. }
  assert (Hdec : existsb (fun p => String.eqb (fst p) (ename f)) (skipn (S k) (flat_map (elem_scalar L Q) fs)) = negb (Nat.eqb k' k)).
  { destruct (Nat.eqb_spec k' k) as [->|Hkk]; cbn [negb].
    - destruct (existsb _ _) eqn:Ex; [|reflexivity]. exfalso. apply existsb_exists in Ex. destruct Ex as ([nm w] & Hi & Heq). apply String.eqb_eq in Heq. cbn in Heq. subst nm.
      apply In_nth_error in Hi. destruct Hi as (d & Hd). assert (Hd2 : nth_error (flat_map (elem_scalar L Q) fs) (S k + d) = Some (ename f, w)).
      { rewrite <- (firstn_skipn (S k) (flat_map (elem_scalar L Q) fs)). rewrite nth_error_app2; [|rewrite firstn_length; lia]. rewrite firstn_length.
        assert (k < length (flat_map (elem_scalar L Q) fs))%nat by (apply nth_error_Some; congruence). rewrite Nat.min_l by lia. replace (S k + d - S k)%nat with d by lia. exact Hd. }
      destruct (escal_cols L Q fs _ _ _ Hd2) as (f2 & Hf2 & He2 & _). apply Hinj in He2. subst f2. apply (Hlb (S k + d)%nat); [lia|exact Hf2].
    - apply existsb_exists. assert (Hkl : (k < k')%nat). { destruct (Nat.lt_ge_cases k k') as [|Hge]; [assumption|]. exfalso. apply (Hlb k); [lia|exact Hf]. }
      assert (Hk' : (k' < length (flat_map (elem_scalar L Q) fs))%nat) by (rewrite escal_len; apply nth_error_Some; congruence).
      specialize (Hcol k' Hk'). rewrite Hla in Hcol. destruct (nth_error (flat_map (elem_scalar L Q) fs) k') as [[nm w]|] eqn:E2; [|discriminate]. cbn in Hcol. injection Hcol as ->.
      exists (ename f, w). split; [|apply String.eqb_refl]. rewrite <- (firstn_skipn (S k) (flat_map (elem_scalar L Q) fs)), nth_error_app2 in E2; [eapply nth_error_In; exact E2|]. rewrite firstn_length. lia. }
  rewrite Hdec. destruct (Nat.eqb k' k); cbn [negb]; [reflexivity|]. rewrite Rmult_0_l. reflexivity.
Qed.
Print Assumptions C59_repeats.

Lemma last_sie : last_at [Den; Sie; Mass; Mass; Den] Sie 1.
Proof. split; [reflexivity|]. intros k' H. destruct k' as [|[|[|[|[|k']]]]]; [lia|lia|discriminate|discriminate|discriminate|]. cbn. destruct k'; discriminate. Qed.
Theorem C59_repeats_refuted :
  exists ne L Q V sched fs, parse_elem ["den"; "sie"; "mass"; "mass"; "den"]%string = Some fs /\ layout_ok ne L /\ elem_sched L sched /\ masses_nonneg L Q /\
  exists o, elem_fields ne L Q V fs [] sched = Some o /\
    elem_scalar L Q Den = [("den"%string, total L Q (fun q => frac q * q_den q))] /\ total L Q (fun q => frac q * q_den q) 0 = 3 /\
    aget (ef_names o) 0 0 = Some "den"%string /\ aget (ef_scalars o) 0 0 = Some 0 /\
    aget (ef_names o) 4 0 = Some "den"%string /\ aget (ef_scalars o) 4 0 = Some 6 /\
    aget (ef_names o) 1 0 = Some "sie"%string /\ aget (ef_scalars o) 1 0 = Some (10 / (2 + 1e-20)).
Proof.
  set (q := mkPoint 3 0 10 0 1 1 1 (fun _ _ => 0) false).
  exists 1%nat, (mkLayout 1 (fun _ => 1%nat) (fun _ _ => O)), (fun _ _ => q), (mkElemv (fun _ => 0) (fun _ => 0) (fun _ _ _ => 0)), (fun _ _ => [O]), [Den; Sie; Mass; Mass; Den].
  assert (HL : layout_ok 1 (mkLayout 1 (fun _ => 1%nat) (fun _ _ => O))) by (intros p _; cbn; lia).
  assert (Hs : elem_sched (mkLayout 1 (fun _ => 1%nat) (fun _ _ => O)) (fun _ _ => [O])) by (intros m f _; apply Permutation_refl).
  assert (Hm : masses_nonneg (mkLayout 1 (fun _ => 1%nat) (fun _ _ => O)) (fun _ _ => q)) by (intros p _; cbn; lra).
  split; [reflexivity|]. split; [exact HL|]. split; [exact Hs|]. split; [exact Hm|].
  destruct (elem_fields_spec 1 _ (fun _ _ => q) (mkElemv (fun _ => 0) (fun _ => 0) (fun _ _ _ => 0)) [Den; Sie; Mass; Mass; Den] [] _ HL Hs ltac:(cbn; lia)) as (o & sl & Eo & Hok & En & _ & R1 & _ & H1 & _).
  { intros _. right; right; left. reflexivity. }
  { intros _ e _. pose proof (total_nonneg _ (fun _ _ => q) e Hm). pose proof (pos_INR (count_occ efield_dec [Den; Sie; Mass; Mass; Den] Mass)). nra. }
  exists o. split; [exact Eo|]. split; [reflexivity|].
  assert (Hn : forall k f, nth_error [Den; Sie; Mass; Mass; Den] k = Some f -> aget (ef_names o) k 0 = Some (ename f)).
  { intros k f Hk. rewrite En. unfold aget. destruct (so_rows _ _ _ Hok false) as [Ha Hb]. cbn [names_of] in Ha, Hb. rewrite Ha, Hb. change (rows [Den; Sie; Mass; Mass; Den] [] false) with 5%nat.
    assert (Hl : (k < 5)%nat) by (change 5%nat with (length [Den; Sie; Mass; Mass; Den]); apply nth_error_Some; congruence). rewrite (proj2 (Nat.ltb_lt _ _) Hl). apply (so_ename _ _ _ Hok false k f Hk). }
  assert (Hslot : forall f k, In f [Den; Sie; Mass; Mass; Den] -> last_at [Den; Sie; Mass; Mass; Den] f k -> slot_of sl (E f) = k).
  { intros f k Hf [Hk1 Hk2]. destruct (so_e _ _ _ Hok f Hf) as (k' & Hid & Ha & Hb). unfold slot_of. rewrite Hid.
    assert (Ht : tensor_field f = false) by (destruct Hf as [<-|[<-|[<-|[<-|[<-|[]]]]]]; reflexivity). rewrite Ht in Ha, Hb. change (ecl [Den; Sie; Mass; Mass; Den] false) with [Den; Sie; Mass; Mass; Den] in Ha, Hb.
    destruct (Nat.lt_trichotomy k k') as [H|[H|H]]; [exfalso; exact (Hk2 k' H Ha)|congruence|exfalso; exact (Hb k H Hk1)]. }
  assert (SD : slot_of sl (E Den) = 4%nat). { apply Hslot; [left; reflexivity|]. split; [reflexivity|]. intros k' H. rewrite (proj2 (nth_error_None _ _)) by (cbn; lia). discriminate. }
  assert (SS : slot_of sl (E Sie) = 1%nat). { apply Hslot; [right; left; reflexivity|]. exact last_sie. }
  split; [unfold total, frac; cbn; ring|].
  split; [apply (Hn 0%nat Den); reflexivity|]. split.
  { rewrite (H1 0%nat Den 0%nat); [|reflexivity|lia]. destruct (efield_dec Den Sie); [discriminate|]. unfold raw, mult. rewrite SD. cbn [Nat.eqb]. f_equal. ring. }
  split; [apply (Hn 4%nat Den); reflexivity|]. split.
  { rewrite (H1 4%nat Den 0%nat); [|reflexivity|lia]. destruct (efield_dec Den Sie); [discriminate|]. unfold raw, mult. rewrite SD. cbn [Nat.eqb]. f_equal. unfold total. cbn. ring. }
  split; [apply (Hn 1%nat Sie); reflexivity|].
  rewrite (H1 1%nat Sie 0%nat); [|reflexivity|lia]. destruct (efield_dec Sie Sie); [|congruence]. unfold raw, mult. rewrite SS. cbn [Nat.eqb]. f_equal.
  assert (T1 : total (mkLayout 1 (fun _ => 1%nat) (fun _ _ => O)) (fun _ _ => q) (fun q => term Sie q 0 0) 0 = 10) by (unfold total; cbn; ring).
  assert (T2 : total (mkLayout 1 (fun _ => 1%nat) (fun _ _ => O)) (fun _ _ => q) q_mass 0 = 1) by (unfold total; cbn; ring).
  rewrite T1, T2. change (count_occ efield_dec [Den; Sie; Mass; Mass; Den] Sie) with 1%nat. change (count_occ efield_dec [Den; Sie; Mass; Mass; Den] Mass) with 2%nat.
  replace (INR 1 * 10) with 10 by (cbn; ring). replace (INR 2 * 1) with 2 by (cbn; ring). reflexivity.
Qed.
Print Assumptions C59_repeats_refuted.

(** *** Nodes *)
(** Named once each, the nodal fields show the values of the nodes, for two-dimensional meshes or when the coordinates are not named. *)
Theorem C59_node nn dims dt X fs sched : NoDup fs -> loop_sched nn sched -> (In NVel fs -> dt <> 0) -> dims = 2%nat \/ dims = 3%nat /\ ~ In NCoords fs ->
  exists o, node_fields nn dims dt X fs sched = Some o /\
    shows_scalars (nf_names o) (nf_scalars o) nn (flat_map (node_scalar X) fs) /\ shows_vectors (nf_vnames o) (nf_vectors o) nn (flat_map (node_vector dims dt X) fs).
Proof.
  intros Hn Hs Hdt Hd. destruct (node_fields_spec nn dims dt X fs sched Hn) as (o & Eo & H1 & H2 & H3 & H4); [tauto|exact Hs|exact Hdt|tauto|].
  exists o. split; [exact Eo|]. split; [exact H1|]. split; [exact H2|]. split; [exact H3|]. intros k name v Hk. destruct (H4 k name v Hk) as (Ha & Hb & _). split; [exact Ha|].
  intros e d He Hd3. apply Hb; [exact He|exact Hd3|]. destruct Hd as [->|[_ Hno]]; [right; left; reflexivity|]. left. intros ->. apply Hno.
  apply nth_error_In in Hk. apply in_flat_map in Hk. destruct Hk as (f & Hf & Hk). destruct f; cbn in Hk; intuition congruence.
Qed.
Print Assumptions C59_node.

(** With coordinates in three dimensions everything but their third component is shown. *)
Theorem C59_node_partial nn dt X fs sched : NoDup fs -> loop_sched nn sched -> (In NVel fs -> dt <> 0) -> (num_node_vectors fs <= nn)%nat ->
  exists o, node_fields nn 3 dt X fs sched = Some o /\
    shows_scalars (nf_names o) (nf_scalars o) nn (flat_map (node_scalar X) fs) /\
    forall k name v, nth_error (flat_map (node_vector 3 dt X) fs) k = Some (name, v) -> aget (nf_vnames o) k 0 = Some name /\
      forall n d, (n < nn)%nat -> (d < 3)%nat -> (name = "node_coords"%string -> (d < 2)%nat) -> aget (nf_vectors o) k (n * 3 + d) = Some (v n d).
Proof.
  intros Hn Hs Hdt Hd. destruct (node_fields_spec nn 3 dt X fs sched Hn) as (o & Eo & H1 & H2 & H3 & H4); [tauto|exact Hs|exact Hdt|tauto|].
  exists o. split; [exact Eo|]. split; [exact H1|]. intros k name v Hk. destruct (H4 k name v Hk) as (Ha & Hb & _). split; [exact Ha|].
  intros n d Hl Hd3 Hc. apply Hb; [exact Hl|exact Hd3|]. destruct (string_dec name "node_coords") as [->|]; [right; right; apply Hc; reflexivity|left; assumption].
Qed.
Print Assumptions C59_node_partial.

(** The third component of the coordinates is written for one node only, whatever the mesh. *)
Theorem C59_node_refuted nn dt X fs sched : NoDup fs -> loop_sched nn sched -> (In NVel fs -> dt <> 0) -> (num_node_vectors fs <= nn)%nat -> In NCoords fs ->
  exists o k, node_fields nn 3 dt X fs sched = Some o /\ aget (nf_vnames o) k 0 = Some "node_coords"%string /\ (k < 4)%nat /\
    forall n, n <> k -> aget (nf_vectors o) k (n * 3 + 2) = None.
Proof.
  intros Hn Hs Hdt Hd Hin. destruct (node_fields_spec nn 3 dt X fs sched Hn) as (o & Eo & H1 & H2 & H3 & H4); [tauto|exact Hs|exact Hdt|tauto|].
  assert (Hc : In ("node_coords"%string, flat 3 (n_x X)) (flat_map (node_vector 3 dt X) fs)) by (apply in_flat_map; exists NCoords; split; [exact Hin|left; reflexivity]).
  apply In_nth_error in Hc. destruct Hc as (k & Hk). destruct (H4 k _ _ Hk) as (Ha & _ & Hb). exists o, k. split; [exact Eo|]. split; [exact Ha|]. split; [|apply Hb; reflexivity].
  assert (Hlen : (length (flat_map (node_vector 3 dt X) fs) <= 4)%nat).
  { assert (Hinc : incl (map fst (flat_map (node_vector 3 dt X) fs)) ["node_coords"; "node_vel"; "node_accel"; "node_grad_lvlset"]%string).
    { intros nm Hnm. apply in_map_iff in Hnm. destruct Hnm as ([nm' w] & Heq & Hi). cbn in Heq. subst nm'. apply in_flat_map in Hi. destruct Hi as (f & _ & Hi). destruct f; cbn in Hi; cbn; intuition congruence. }
    rewrite <- (map_length fst). change 4%nat with (length ["node_coords"; "node_vel"; "node_accel"; "node_grad_lvlset"]%string). apply NoDup_incl_length; [|exact Hinc].
    rewrite flat_map_concat_map, concat_map, map_map, <- flat_map_concat_map. apply nodup_flat; [exact Hn| |].
    - intros []; cbn; repeat constructor; cbn; intuition discriminate.
    - intros [] []; cbn; try reflexivity; intros b Hx Hy; intuition congruence. }
  assert (k < length (flat_map (node_vector 3 dt X) fs))%nat by (apply nth_error_Some; congruence). lia.
Qed.
Print Assumptions C59_node_refuted.

(** *** Materials *)
(** Named once each, the fields of a material show the values of its points, the erosion flag as 0 or 1. *)
Theorem C59_mat nme Q fs sched : NoDup fs -> loop_sched nme sched ->
  exists o, mat_fields nme Q fs sched = Some o /\
    shows_scalars (mf_names o) (mf_scalars o) nme (flat_map (mat_scalar Q) fs) /\ shows_tensors (mf_tnames o) (mf_tensors o) nme (flat_map (mat_tensor Q) fs).
Proof. intros. apply mat_fields_spec; assumption. Qed.
Print Assumptions C59_mat.

(** *** The hypotheses are met: two materials share an element *)
Definition two : layout := mkLayout 2 (fun m => 2 - m)%nat (fun _ s => s).
Definition twoQ (m s : nat) : mpoint := mkPoint (1 + INR m) 5 10 2 1 (if Nat.eqb s 0 then / 2 else 1) 1 (fun i j => INR (i + j)) (Nat.eqb m 1).
Example C59_ex : layout_ok 2 two /\ elem_sched two (fun m _ => rev (seq 0 (2 - m))) /\ masses_nonneg two twoQ /\
  parse_elem ["den"; "stress"; "sie"]%string = Some [Den; Stress; Sie; Mass] /\ NoDup [Den; Stress; Sie; Mass] /\ NoDup [Vol; VelGrad] /\
  total two twoQ frac 0 = 1 /\ total two twoQ (fun q => frac q * q_den q) 0 = 3 / 2 /\
  loop_sched 8 (fun f : nfield => rev (seq 0 8)) /\ NoDup [NTemp; NVel; NCoords; NMass] /\ (num_node_vectors [NTemp; NVel; NCoords; NMass] <= 8)%nat /\
  NoDup [Elem Stress; Volfrac; Eroded].
Proof.
  assert (Hp : points two = [(0, 0); (0, 1); (1, 0)]%nat) by reflexivity.
  split. { intros p Hi. rewrite Hp in Hi. destruct Hi as [<-|[<-|[<-|[]]]]; cbn; lia. }
  split. { intros m f _. cbn. apply Permutation_sym, Permutation_rev. }
  split. { intros p _. cbn. lra. }
  split; [reflexivity|]. split; [repeat constructor; cbn; intuition discriminate|]. split; [repeat constructor; cbn; intuition discriminate|].
  split; [unfold total, frac; cbn; lra|]. split; [unfold total, frac; cbn; lra|].
  split; [intros f; apply Permutation_sym, Permutation_rev|]. split; [repeat constructor; cbn; intuition discriminate|]. split; [cbn; lia|].
  repeat constructor; cbn; intuition discriminate.
Qed.
