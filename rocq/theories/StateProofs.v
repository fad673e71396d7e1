From Verif Require Import StateModel StateSpec.

Lemma fill_node_eqb_spec a b : fill_node_eqb a b = true <-> a = b.
Proof. destruct a, b; cbn; split; congruence. Qed.
Lemma fill_gauss_eqb_spec a b : fill_gauss_eqb a b = true <-> a = b.
Proof. destruct a, b; cbn; split; congruence. Qed.
Lemma node_array_eqb_spec a b : node_array_eqb a b = true <-> a = b.
Proof. destruct a, b; cbn; split; congruence. Qed.
Lemma fg_array_eqb_spec a b : fg_array_eqb a b = true <-> a = b.
Proof. destruct a, b; cbn; split; congruence. Qed.

Section Fill.
Context {A : Type} (eqb : A -> A -> bool) (eqb_spec : forall a b, eqb a b = true <-> a = b).

Lemma store_in l f x : In x (store eqb l f) <-> In x l \/ x = f.
Proof.
  unfold store. destruct (existsb (fun g => eqb g f) l) eqn:E.
  - apply existsb_exists in E as (g & Hg & Eg). apply eqb_spec in Eg. subst g. split; [tauto|]. intros [H|H]; [exact H|now subst].
  - rewrite in_app_iff. cbn. intuition.
Qed.

Lemma store_nodup l f : NoDup l -> NoDup (store eqb l f).
Proof.
  intros H. unfold store. destruct (existsb (fun g => eqb g f) l) eqn:E; [exact H|].
  assert (N : ~ In f l).
  { intros Hf. assert (X : existsb (fun g => eqb g f) l = true) by (apply existsb_exists; exists f; split; [exact Hf|now apply eqb_spec]). congruence. }
  clear E. induction l as [|a l IH]; cbn; [constructor; [intros []|constructor]|].
  inversion H; subst. constructor.
  - rewrite in_app_iff. cbn. intros [X|[X|[]]]; [contradiction|]. subst. apply N. now left.
  - apply IH; [assumption|]. intros X. apply N. now right.
Qed.

Lemma count_inner r filled : NoDup filled -> forall c,
  fold_left (fun c f => if eqb f r then S c else c) filled c = if existsb (fun f => eqb f r) filled then S c else c.
Proof.
  induction filled as [|f l IH]; intros N c; [reflexivity|]. inversion N as [|? ? X Y]; subst. cbn [fold_left existsb].
  destruct (eqb f r) eqn:E; cbn [orb].
  - apply eqb_spec in E. subst f. rewrite (IH Y).
    destruct (existsb (fun f => eqb f r) l) eqn:F; [|reflexivity].
    apply existsb_exists in F as (g & Hg & Eg). apply eqb_spec in Eg. subst g. contradiction.
  - apply IH, Y.
Qed.

Lemma count_outer filled : NoDup filled -> forall required c,
  fold_left (fun c r => fold_left (fun c f => if eqb f r then S c else c) filled c) required c
  = c + length (filter (fun r => existsb (fun f => eqb f r) filled) required).
Proof.
  intros N. induction required as [|r l IH]; intros c; cbn [fold_left filter length]; [lia|].
  rewrite count_inner, IH by exact N. destruct (existsb (fun f => eqb f r) filled); cbn [length]; lia.
Qed.

Lemma filter_all {B} (h : B -> bool) l : length (filter h l) <= length l /\ (length (filter h l) = length l <-> forall x, In x l -> h x = true).
Proof.
  induction l as [|a l [I1 I2]]; cbn; [split; [lia|]; split; [intros _ x []|reflexivity]|].
  destruct (h a) eqn:E; cbn; split; try lia; split.
  - intros H x [<-|Hx]; [exact E|]. apply I2; [lia|exact Hx].
  - intros H. f_equal. apply I2. intros; apply H; now right.
  - intros H. lia.
  - intros H. specialize (H a (or_introl eq_refl)). congruence.
Qed.

Lemma check_fill_iff required filled : NoDup filled ->
  (check_fill eqb required filled = true <-> forall r, In r required -> In r filled).
Proof.
  intros N. unfold check_fill, count_fill. rewrite Nat.eqb_eq, count_outer by exact N. cbn.
  rewrite (proj2 (filter_all _ required)). split; intros H r Hr.
  - specialize (H r Hr). apply existsb_exists in H as (g & Hg & Eg). apply eqb_spec in Eg. now subst.
  - apply existsb_exists. exists r. split; [now apply H|]. now apply eqb_spec.
Qed.
End Fill.

Definition given_in (ws : list word) (w : word) : Prop := In w ws.

Lemma parse_words ws : forall st, NoDup (fst st) -> NoDup (snd st) ->
  let st' := fold_left parse_word ws st in
  NoDup (fst st') /\ NoDup (snd st') /\
  (forall f, In f (fst st') <-> In f (fst st) \/ In (WNode f) ws) /\
  (forall f, In f (snd st') <-> In f (snd st) \/ In (WGauss f) ws).
Proof.
  induction ws as [|w ws IH]; intros st N1 N2; cbn [fold_left].
  - cbn. intuition.
  - assert (P1 : NoDup (fst (parse_word st w))) by (destruct w; cbn; [now apply store_nodup; [apply fill_node_eqb_spec|]|assumption]).
    assert (P2 : NoDup (snd (parse_word st w))) by (destruct w; cbn; [assumption|now apply store_nodup; [apply fill_gauss_eqb_spec|]]).
    destruct (IH _ P1 P2) as (A & B & C & D). cbn zeta. split; [exact A|]. split; [exact B|]. split; intros f.
    + rewrite C. destruct w as [g|g]; cbn [parse_word fst].
      * rewrite store_in by apply fill_node_eqb_spec. cbn. intuition congruence.
      * cbn. intuition congruence.
    + rewrite D. destruct w as [g|g]; cbn [parse_word snd].
      * cbn. intuition congruence.
      * rewrite store_in by apply fill_gauss_eqb_spec. cbn. intuition congruence.
Qed.

Lemma parse_regions_spec regions : forall st out, NoDup (fst st) -> NoDup (snd st) ->
  parse_regions regions st = Some out ->
  NoDup (fst out) /\ NoDup (snd out) /\
  (forall f, In f (fst out) <-> In f (fst st) \/ node_given regions f) /\
  (forall f, In f (snd out) <-> In f (snd st) \/ gauss_given regions f).
Proof.
  induction regions as [|r rs IH]; intros st out N1 N2 H; cbn [parse_regions] in H.
  - injection H as <-. split; [exact N1|]. split; [exact N2|]. unfold node_given, gauss_given. cbn.
    split; intros f; (split; [tauto|]); intros [X|(? & [] & _)]; exact X.
  - destruct (parse_words r st N1 N2) as (A & B & C & D). cbn zeta in H.
    set (st' := fold_left parse_word r st) in *.
    assert (H' : parse_regions rs st' = Some out) by (destruct (snd st'); [discriminate|exact H]).
    destruct (IH st' out A B H') as (E & F & G & K). split; [exact E|]. split; [exact F|]. split; intros f.
    + rewrite G, C. unfold node_given. split.
      * intros [[X|X]|(r' & X & Y)]; [now left|right; exists r; split; [now left|exact X]|right; exists r'; split; [now right|exact Y]].
      * intros [X|(r' & [<-|X] & Y)]; [tauto|tauto|right; eauto].
    + rewrite K, D. unfold gauss_given. split.
      * intros [[X|X]|(r' & X & Y)]; [now left|right; exists r; split; [now left|exact X]|right; exists r'; split; [now right|exact Y]].
      * intros [X|(r' & [<-|X] & Y)]; [tauto|tauto|right; eauto].
Qed.

Lemma accepts_iff rq regions fills : fill_states regions = Some fills ->
  (accepts rq fills = true <->
   (forall f, In f (rq_node rq) -> node_given regions f) /\
   ((forall f, In f (rq_optA rq) -> gauss_given regions f) \/ (forall f, In f (rq_optB rq) -> gauss_given regions f))).
Proof.
  intros H. destruct (parse_regions_spec regions ([], []) fills (NoDup_nil _) (NoDup_nil _) H) as (A & B & C & D).
  unfold accepts. rewrite andb_true_iff, orb_true_iff.
  rewrite (check_fill_iff fill_node_eqb fill_node_eqb_spec) by exact A.
  rewrite !(check_fill_iff fill_gauss_eqb fill_gauss_eqb_spec) by exact B.
  assert (C' : forall f, In f (fst fills) <-> node_given regions f) by (intros f; rewrite C; cbn; tauto).
  assert (D' : forall f, In f (snd fills) <-> gauss_given regions f) by (intros f; rewrite D; cbn; tauto).
  setoid_rewrite C'. setoid_rewrite D'. tauto.
Qed.

Lemma sgh_accepts regions fills : fill_states regions = Some fills ->
  (accepts sgh_req fills = true <->
   node_given regions FNVelocity /\ gauss_given regions FDensity /\ (gauss_given regions FSie \/ gauss_given regions FIe)).
Proof.
  intros H. rewrite (accepts_iff _ _ _ H). cbn. split.
  - intros [A [B|B]]; repeat split; auto.
  - intros (A & B & [C|C]).
    + split; [intros f [<-|[]]; exact A|]. left. intros f [<-|[<-|[]]]; assumption.
    + split; [intros f [<-|[]]; exact A|]. right. intros f [<-|[<-|[]]]; assumption.
Qed.

Lemma sgtm_accepts regions fills : fill_states regions = Some fills ->
  (accepts sgtm_req fills = true <->
   node_given regions FNVelocity /\ node_given regions FNTemperature /\ gauss_given regions FDensity /\
   (gauss_given regions FSie \/ gauss_given regions FIe) /\ gauss_given regions FConductivity /\ gauss_given regions FSpecificHeat).
Proof.
  intros H. rewrite (accepts_iff _ _ _ H). cbn. split.
  - intros [A [B|B]]; repeat split; auto 8.
  - intros (A & A' & B & [C|C] & D & E).
    + split; [intros f [<-|[<-|[]]]; assumption|]. left. intros f [<-|[<-|[<-|[<-|[]]]]]; assumption.
    + split; [intros f [<-|[<-|[]]]; assumption|]. right. intros f [<-|[<-|[<-|[<-|[]]]]]; assumption.
Qed.

(** The order of regions and of words inside them does not matter. *)
Lemma accepts_same_words rq regions regions' fills fills' :
  fill_states regions = Some fills -> fill_states regions' = Some fills' ->
  (forall w, In w (concat regions) <-> In w (concat regions')) ->
  accepts rq fills = accepts rq fills'.
Proof.
  intros H H' E.
  assert (N : forall f, node_given regions f <-> node_given regions' f).
  { intros f. assert (X := E (WNode f)). rewrite !in_concat in X. unfold node_given. exact X. }
  assert (G : forall f, gauss_given regions f <-> gauss_given regions' f).
  { intros f. assert (X := E (WGauss f)). rewrite !in_concat in X. unfold gauss_given. exact X. }
  apply eq_true_iff_eq. rewrite (accepts_iff _ _ _ H), (accepts_iff _ _ _ H'). setoid_rewrite N. setoid_rewrite G. tauto.
Qed.

(** The first region decides whether parsing fails. *)
Lemma fill_states_fails regions :
  fill_states regions = None <-> exists r rs, regions = r :: rs /\ forall f, ~ In (WGauss f) r.
Proof.
  unfold fill_states. split.
  - destruct regions as [|r rs]; [discriminate|]. intros H. exists r, rs. split; [reflexivity|]. cbn [parse_regions] in H.
    destruct (parse_words r ([], []) (NoDup_nil _) (NoDup_nil _)) as (A & B & C & D).
    set (st := fold_left parse_word r ([], [])) in *.
    destruct (snd st) as [|g l] eqn:E.
    + intros f Hf. assert (X : In f []) by (apply D; now right). destruct X.
    + exfalso. assert (P : forall rs st, snd st <> [] -> parse_regions rs st <> None).
      { induction rs0 as [|r0 rs0 IH]; intros st0 H0; [discriminate|]. cbn [parse_regions].
        assert (Q : forall ws st, snd st <> [] -> snd (fold_left parse_word ws st) <> []).
        { induction ws as [|w ws IHw]; intros s Hs; [exact Hs|]. cbn [fold_left]. apply IHw. destruct w as [f|f]; cbn; [exact Hs|].
          unfold store. destruct (existsb _ (snd s)); [exact Hs|]. destruct (snd s); cbn; discriminate. }
        assert (R := Q r0 st0 H0). destruct (snd (fold_left parse_word r0 st0)) eqn:E0; [congruence|].
        apply IH. rewrite E0. discriminate. }
      apply (P rs st); [rewrite E; discriminate|exact H].
  - intros (r & rs & -> & H). cbn [parse_regions].
    destruct (parse_words r ([], []) (NoDup_nil _) (NoDup_nil _)) as (A & B & C & D).
    set (st := fold_left parse_word r ([], [])) in *.
    destruct (snd st) as [|g l] eqn:E; [reflexivity|]. exfalso.
    assert (X : In g (g :: l)) by now left. apply D in X as [[]|X]. now apply (H g).
Qed.

(** ** Allocation *)
Section Alloc.
Context {name fld : Type} (eqb : name -> name -> bool) (eqb_spec : forall a b, eqb a b = true <-> a = b).

Lemma alloc_stmt_self st x n y : alloc_stmt eqb st (x, x, n) y = if eqb y x then (if Nat.eqb (st x) 0 then n else st x) else st y.
Proof.
  cbn. destruct (Nat.eqb (st x) 0) eqn:Z; destruct (eqb y x) eqn:E; try reflexivity.
  apply eqb_spec in E. now subst.
Qed.

(** Cases whose statements test the array they allocate. *)
Lemma stmts_spec : forall (l : list (name * nat)) st, 
  (forall a n, In (a, n) l -> forall m, In (a, m) l -> n = m) ->
  let st' := fold_left (alloc_stmt eqb) (map (fun p => (fst p, fst p, snd p)) l) st in
  (forall a n, In (a, n) l -> st' a = if Nat.eqb (st a) 0 then n else st a) /\
  (forall a, ~ In a (map fst l) -> st' a = st a).
Proof.
  induction l as [|[x k] l IH]; intros st Hu; cbn [map fold_left].
  - cbn. split; [intros a n []|reflexivity].
  - cbn zeta. set (st1 := alloc_stmt eqb st (fst (x, k), fst (x, k), snd (x, k))).
    destruct (IH st1) as [I1 I2]; [intros a n H m H'; apply (Hu a n (or_intror H) m (or_intror H'))|].
    assert (S1 : forall y, st1 y = if eqb y x then (if Nat.eqb (st x) 0 then k else st x) else st y).
    { intros y. exact (alloc_stmt_self st x k y). }
    assert (D : forall a, {In a (map fst l)} + {~ In a (map fst l)}).
    { intros a. apply in_dec. intros u v. destruct (eqb u v) eqn:E; [left; now apply eqb_spec|right].
      intros X. apply eqb_spec in X. congruence. }
    split.
    + intros a n [E|H].
      * injection E as -> ->. destruct (D a) as [Hin|Hout].
        -- apply in_map_iff in Hin as ([a' m] & E' & Hm). cbn [fst] in E'. subst a'.
           assert (n = m) by (apply (Hu a n (or_introl eq_refl) m (or_intror Hm))). subst m.
           rewrite (I1 a n Hm). rewrite S1. rewrite (proj2 (eqb_spec a a) eq_refl).
           destruct (Nat.eqb (st a) 0) eqn:Z; [|rewrite Z; reflexivity]. destruct (Nat.eqb n 0); reflexivity.
        -- rewrite (I2 a Hout), S1. now rewrite (proj2 (eqb_spec a a) eq_refl).
      * rewrite (I1 a n H), S1. destruct (eqb a x) eqn:E; [|reflexivity]. apply eqb_spec in E. subst a.
        assert (k = n) by (apply (Hu x k (or_introl eq_refl) n (or_intror H))). subst k.
        destruct (Nat.eqb (st x) 0) eqn:Z; [|rewrite Z; reflexivity]. destruct (Nat.eqb n 0); reflexivity.
    + intros a Ha. rewrite I2 by (intros X; apply Ha; now right). rewrite S1.
      destruct (eqb a x) eqn:E; [|reflexivity]. apply eqb_spec in E. subst a. exfalso. apply Ha. now left.
Qed.

Lemma init_flat (cases : fld -> list (name * name * nat)) fields st :
  initialize eqb cases fields st = fold_left (alloc_stmt eqb) (flat_map cases fields) st.
Proof.
  unfold initialize. revert st. induction fields as [|f l IH]; intros st; [reflexivity|]. cbn [fold_left flat_map].
  now rewrite fold_left_app, IH.
Qed.
End Alloc.

Lemma flat_map_map {A B C} (g : B -> C) (h : A -> list B) l : flat_map (fun a => map g (h a)) l = map g (flat_map h l).
Proof. induction l as [|a l IH]; [reflexivity|]. cbn. now rewrite map_app, IH. Qed.

Section AllocGeneric.
Context {name fld : Type} (eqb : name -> name -> bool) (eqb_spec : forall a b, eqb a b = true <-> a = b).
Lemma allocated (cases : fld -> list (name * name * nat)) (arrays : fld -> list (name * nat)) :
  (forall f, cases f = map (fun p => (fst p, fst p, snd p)) (arrays f)) ->
  (forall f f' a n m, In (a, n) (arrays f) -> In (a, m) (arrays f') -> n = m) ->
  forall fields st,
  let st' := initialize eqb cases fields st in
  (forall f a n, In f fields -> In (a, n) (arrays f) -> st' a = if Nat.eqb (st a) 0 then n else st a) /\
  (forall a, (forall f, In f fields -> ~ In a (map fst (arrays f))) -> st' a = st a).
Proof.
  intros Hc Hu fields st. rewrite init_flat.
  assert (E : flat_map cases fields = map (fun p => (fst p, fst p, snd p)) (flat_map arrays fields)).
  { rewrite <- flat_map_map. apply flat_map_ext. exact Hc. }
  rewrite E. destruct (stmts_spec eqb eqb_spec (flat_map arrays fields) st) as [I1 I2].
  { intros a n H m H'. apply in_flat_map in H as (f & _ & H). apply in_flat_map in H' as (f' & _ & H'). now apply (Hu f f' a). }
  split.
  - intros f a n Hf Ha. apply I1. apply in_flat_map. eauto.
  - intros a Ha. apply I2. intros X. apply in_map_iff in X as ([a' n] & <- & X). apply in_flat_map in X as (f & Hf & X).
    apply (Ha f Hf). apply in_map_iff. exists (a', n). split; [reflexivity|exact X].
Qed.
End AllocGeneric.

Ltac table_unique :=
  let f := fresh "f" in let f' := fresh "f'" in let H := fresh "H" in let H' := fresh "H'" in
  intros f f' ? ? ? H H'; destruct f; cbn in H;
  repeat match type of H with _ \/ _ => destruct H as [H|H] | False => destruct H end; injection H as <- <-;
  destruct f'; cbn in H'; repeat match type of H' with _ \/ _ => destruct H' as [H'|H'] | False => destruct H' end; congruence.

Lemma node_allocated nodes dims fields st :
  let st' := initialize node_array_eqb (node_cases nodes dims) fields st in
  (forall f a n, In f fields -> In (a, n) (node_arrays nodes dims f) -> st' a = if Nat.eqb (st a) 0 then n else st a) /\
  (forall a, (forall f, In f fields -> ~ In a (map fst (node_arrays nodes dims f))) -> st' a = st a).
Proof. apply (allocated node_array_eqb node_array_eqb_spec); [intros []; reflexivity|table_unique]. Qed.

Lemma gp_array_eqb_spec a b : gp_array_eqb a b = true <-> a = b.
Proof. destruct a, b; cbn; split; congruence. Qed.
Lemma mp_array_eqb_spec a b : mp_array_eqb a b = true <-> a = b.
Proof. destruct a, b; cbn; split; congruence. Qed.
Lemma cn_array_eqb_spec a b : cn_array_eqb a b = true <-> a = b.
Proof. destruct a, b; cbn; split; congruence. Qed.

Lemma gauss_allocated pts dims fields st :
  let st' := initialize gp_array_eqb (gp_cases pts dims) fields st in
  (forall f a n, In f fields -> In (a, n) (gp_arrays pts dims f) -> st' a = if Nat.eqb (st a) 0 then n else st a) /\
  (forall a, (forall f, In f fields -> ~ In a (map fst (gp_arrays pts dims f))) -> st' a = st a).
Proof. apply (allocated gp_array_eqb gp_array_eqb_spec); [intros []; reflexivity|table_unique]. Qed.

Lemma corner_allocated corners dims fields st :
  let st' := initialize cn_array_eqb (cn_cases corners dims) fields st in
  (forall f a n, In f fields -> In (a, n) (cn_arrays corners dims f) -> st' a = if Nat.eqb (st a) 0 then n else st a) /\
  (forall a, (forall f, In f fields -> ~ In a (map fst (cn_arrays corners dims f))) -> st' a = st a).
Proof. apply (allocated cn_array_eqb cn_array_eqb_spec); [intros []; reflexivity|table_unique]. Qed.

Lemma mat_allocated pts dims fields st :
  let st' := mp_initialize pts dims fields st in
  (forall f a n, In f fields -> In (a, n) (mp_arrays pts dims f) -> st' a = if Nat.eqb (st a) 0 then n else st a) /\
  st' MTempGrad = (if Nat.eqb (st MTempGrad) 0 then pts * 3 else st MTempGrad) /\
  (forall a, a <> MTempGrad -> (forall f, In f fields -> ~ In a (map fst (mp_arrays pts dims f))) -> st' a = st a).
Proof.
  unfold mp_initialize. set (st1 := alloc_stmt mp_array_eqb st (MTempGrad, MTempGrad, pts * 3)).
  assert (S1 : forall y, st1 y = if mp_array_eqb y MTempGrad then (if Nat.eqb (st MTempGrad) 0 then pts * 3 else st MTempGrad) else st y).
  { intros y. apply (alloc_stmt_self mp_array_eqb mp_array_eqb_spec). }
  destruct (allocated mp_array_eqb mp_array_eqb_spec (mp_cases pts dims) (mp_arrays pts dims)) with (fields := fields) (st := st1) as [I1 I2];
    [intros []; reflexivity|table_unique|].
  assert (T : forall f, ~ In MTempGrad (map fst (mp_arrays pts dims f))).
  { intros f. destruct f; cbn; intuition discriminate. }
  cbn zeta. split; [|split].
  - intros f a n Hf Ha. rewrite (I1 f a n Hf Ha), S1.
    assert (X : mp_array_eqb a MTempGrad = false).
    { destruct (mp_array_eqb a MTempGrad) eqn:E; [|reflexivity]. apply mp_array_eqb_spec in E. subst a. exfalso.
      apply (T f). apply in_map_iff. exists (MTempGrad, n). split; [reflexivity|exact Ha]. }
    now rewrite X.
  - rewrite I2 by (intros f _; apply T). rewrite S1. reflexivity.
  - intros a Ha Hf. rewrite I2 by exact Hf. rewrite S1.
    destruct (mp_array_eqb a MTempGrad) eqn:E; [|reflexivity]. apply mp_array_eqb_spec in E. contradiction.
Qed.

(** fillGaussState_t: without an internal-energy request everything is allocated. *)
Lemma fg_eq gauss mats dims fields : ~ In FIe fields ->
  flat_map (fg_cases gauss mats dims) fields = map (fun p => (fst p, fst p, snd p)) (flat_map (fill_arrays gauss mats dims) fields).
Proof.
  intros H. induction fields as [|f l IH]; [reflexivity|]. cbn [flat_map]. rewrite map_app, IH by (intros X; apply H; now right).
  f_equal. destruct f; try reflexivity. exfalso. apply H. now left.
Qed.

Lemma fg_unique gauss mats dims fields a n m :
  In (a, n) (flat_map (fill_arrays gauss mats dims) fields) -> In (a, m) (flat_map (fill_arrays gauss mats dims) fields) -> n = m.
Proof.
  intros H H'. apply in_flat_map in H as (f & _ & H). apply in_flat_map in H' as (f' & _ & H').
  destruct f; cbn in H; destruct f'; cbn in H';
      repeat match goal with X : _ \/ _ |- _ => destruct X | X : False |- _ => destruct X | X : (_, _) = (_, _) |- _ => injection X as; subst end; congruence.
Qed.

Lemma fill_allocated gauss mats dims fields st : ~ In FIe fields ->
  let st' := initialize fg_array_eqb (fg_cases gauss mats dims) fields st in
  (forall f a n, In f fields -> In (a, n) (fill_arrays gauss mats dims f) -> st' a = if Nat.eqb (st a) 0 then n else st a).
Proof.
  intros H. rewrite init_flat, (fg_eq _ _ _ _ H).
  destruct (stmts_spec fg_array_eqb fg_array_eqb_spec (flat_map (fill_arrays gauss mats dims) fields) st) as [I1 I2].
  { intros a n X m Y. exact (fg_unique gauss mats dims fields a n m X Y). }
  cbn zeta. intros f a n Hf Ha. apply I1. apply in_flat_map. eauto.
Qed.

(** The internal-energy array stays unallocated exactly when the specific energy comes first. *)
Lemma ie_unchanged_no_ie gauss mats dims fields st : ~ In FIe fields ->
  initialize fg_array_eqb (fg_cases gauss mats dims) fields st Ie = st Ie.
Proof.
  intros H. rewrite init_flat, (fg_eq _ _ _ _ H).
  destruct (stmts_spec fg_array_eqb fg_array_eqb_spec (flat_map (fill_arrays gauss mats dims) fields) st) as [_ I2].
  { intros a n X m Y. exact (fg_unique gauss mats dims fields a n m X Y). }
  apply I2. intros X. apply in_map_iff in X as ([a n] & E & X). cbn in E. subst a. apply in_flat_map in X as (f & Hf & X).
  destruct f; cbn in X; repeat match goal with X : _ \/ _ |- _ => destruct X | X : False |- _ => destruct X | X : (_, _) = (_, _) |- _ => injection X as; subst end; try congruence.
Qed.

Lemma sie_kept gauss mats dims fields : forall st, st Sie <> 0 ->
  initialize fg_array_eqb (fg_cases gauss mats dims) fields st Sie = st Sie /\
  initialize fg_array_eqb (fg_cases gauss mats dims) fields st Ie = st Ie.
Proof.
  unfold initialize. induction fields as [|f l IH]; intros st H; [split; reflexivity|]. cbn [fold_left].
  assert (K : fold_left (alloc_stmt fg_array_eqb) (fg_cases gauss mats dims f) st Sie = st Sie /\
              fold_left (alloc_stmt fg_array_eqb) (fg_cases gauss mats dims f) st Ie = st Ie).
  { assert (Z : Nat.eqb (st Sie) 0 = false) by now apply Nat.eqb_neq.
    destruct f; cbn [fg_cases fold_left alloc_stmt]; rewrite ?Z;
      repeat match goal with |- context [Nat.eqb ?x 0] => destruct (Nat.eqb x 0) eqn:?; cbn end; split; reflexivity. }
  destruct K as [K1 K2]. destruct (IH (fold_left (alloc_stmt fg_array_eqb) (fg_cases gauss mats dims f) st)) as [J1 J2].
  { now rewrite K1. }
  split; etransitivity; [exact J1|exact K1|exact J2|exact K2].
Qed.

Lemma ie_never_allocated gauss mats dims before after : 0 < gauss * mats -> ~ In FIe before ->
  initialize fg_array_eqb (fg_cases gauss mats dims) (before ++ FSie :: after) (fun _ => 0) Ie = 0.
Proof.
  intros Hp Hb. unfold initialize. rewrite fold_left_app. cbn [fold_left].
  set (st := fold_left (fun s f => fold_left (alloc_stmt fg_array_eqb) (fg_cases gauss mats dims f) s) before (fun _ => 0)).
  assert (E : st Ie = 0) by exact (ie_unchanged_no_ie gauss mats dims before (fun _ => 0) Hb).
  set (st1 := fold_left (alloc_stmt fg_array_eqb) (fg_cases gauss mats dims FSie) st).
  assert (E1 : st1 Ie = 0 /\ st1 Sie <> 0).
  { unfold st1. cbn [fg_cases fold_left alloc_stmt]. destruct (Nat.eqb (st Sie) 0) eqn:Z.
    - cbn. destruct (Nat.eqb (st UseSie) 0); cbn; split; try exact E; lia.
    - apply Nat.eqb_neq in Z. destruct (Nat.eqb (st UseSie) 0); cbn; split; try exact E; exact Z. }
  destruct (sie_kept gauss mats dims after st1 (proj2 E1)) as [_ J]. unfold initialize in J. etransitivity; [exact J|apply E1].
Qed.

Lemma ie_allocated gauss mats dims before after : 0 < gauss * mats -> ~ In FIe before -> ~ In FSie before ->
  initialize fg_array_eqb (fg_cases gauss mats dims) (before ++ FIe :: after) (fun _ => 0) Ie = gauss * mats.
Proof.
  intros Hp Hb Hs. unfold initialize. rewrite fold_left_app. cbn [fold_left].
  set (st := fold_left (fun s f => fold_left (alloc_stmt fg_array_eqb) (fg_cases gauss mats dims f) s) before (fun _ => 0)).
  assert (E : st Sie = 0).
  { assert (X := init_flat fg_array_eqb (fg_cases gauss mats dims) before (fun _ => 0)). unfold initialize in X. unfold st. rewrite X.
    rewrite (fg_eq _ _ _ _ Hb).
    destruct (stmts_spec fg_array_eqb fg_array_eqb_spec (flat_map (fill_arrays gauss mats dims) before) (fun _ => 0)) as [_ I2].
    { intros a n Y m Z. exact (fg_unique gauss mats dims before a n m Y Z). }
    etransitivity; [apply I2|reflexivity]. intros Y. apply in_map_iff in Y as ([a n] & E & Y). cbn in E. subst a. apply in_flat_map in Y as (f & Hf & Y).
    destruct f; cbn in Y; repeat match goal with X : _ \/ _ |- _ => destruct X | X : False |- _ => destruct X | X : (_, _) = (_, _) |- _ => injection X as; subst end; try congruence; contradiction. }
  set (st1 := fold_left (alloc_stmt fg_array_eqb) (fg_cases gauss mats dims FIe) st).
  assert (E1 : st1 Ie = gauss * mats).
  { unfold st1. cbn [fg_cases fold_left alloc_stmt]. rewrite E. cbn. destruct (Nat.eqb (st UseSie) 0); reflexivity. }
  (* later requests keep a non-empty array *)
  assert (K : forall l s, s Ie = gauss * mats -> fold_left (fun s f => fold_left (alloc_stmt fg_array_eqb) (fg_cases gauss mats dims f) s) l s Ie = gauss * mats).
  { induction l as [|f l IH]; intros s Hs1; [exact Hs1|]. cbn [fold_left]. apply IH.
    destruct f; cbn [fg_cases fold_left alloc_stmt];
      repeat match goal with |- context [Nat.eqb ?x 0] => destruct (Nat.eqb x 0) eqn:?; cbn end; try exact Hs1; reflexivity. }
  now apply K.
Qed.

(** ** Storage indices *)
Lemma index_injective n s l s' l' : l < n -> l' < n -> index_in_mat n s l = index_in_mat n s' l' -> s = s' /\ l = l'.
Proof. unfold index_in_mat. intros H H' E. assert (s = s') by nia. subst. split; [reflexivity|lia]. Qed.

Lemma index_range n num s l : s < num -> l < n -> index_in_mat n s l < num_storage num n.
Proof. unfold index_in_mat, num_storage. nia. Qed.

Lemma index_onto n num i : i < num_storage num n -> exists s l, s < num /\ l < n /\ index_in_mat n s l = i.
Proof.
  unfold num_storage, index_in_mat. intros H. assert (0 < n) by (destruct n; lia). exists (i / n), (i mod n).
  split; [apply Nat.div_lt_upper_bound; lia|]. split; [apply Nat.mod_upper_bound; lia|].
  rewrite (Nat.mul_comm (i / n)). symmetry. apply Nat.div_mod_eq.
Qed.

Lemma fill_gauss_injective_iff n ne : 0 < ne ->
  ((forall e l e' l', e < ne -> e' < ne -> l < n -> l' < n -> fill_gauss_gid e l = fill_gauss_gid e' l' -> e = e' /\ l = l')
   <-> n <= 1 \/ ne = 1).
Proof.
  unfold fill_gauss_gid. intros Hne. split.
  - intros H. destruct (le_lt_dec n 1); [now left|]. destruct (le_lt_dec ne 1); [right; lia|].
    exfalso. destruct (H 0 1 1 0); lia.
  - intros [H|H] e l e' l' ? ? ? ? E; lia.
Qed.
