From Coq Require Import Reals String Permutation Lra.
From Verif Require Import BaseArr BaseReal.
From Verif Require Import SghModel SghSpec FieldModel FieldSpec.
Open Scope R_scope.

(** *** Numbering of columns *)
Section Slots.
Context {K : Type} (dec : forall x y : K, {x = y} + {x <> y}).
Definition op := (bool * K * string)%type.
Definition do_op (o : op) : slots K -> option (slots K) :=
  (if fst (fst o) then tensor_slot else scalar_slot) dec (snd (fst o)) (snd o).
Definition cols (b : bool) (l : list op) : list (K * string) := map (fun o => (snd (fst o), snd o)) (filter (fun o => Bool.eqb (fst (fst o)) b) l).
Definition last_at (l : list K) (i : K) (k : nat) : Prop := nth_error l k = Some i /\ forall k', (k < k')%nat -> nth_error l k' <> Some i.
Definition names_of (b : bool) (s : slots K) := if b then sl_tnames s else sl_names s.
Definition var_of (b : bool) (s : slots K) := if b then sl_tvar s else sl_var s.

Lemma cols_app b l l' : cols b (l ++ l') = (cols b l ++ cols b l')%list.
Proof. unfold cols. now rewrite filter_app, map_app. Qed.

Lemma cols_one b b' i nm : cols b [(b', i, nm)] = if Bool.eqb b' b then [(i, nm)] else [].
Proof. unfold cols. cbn [filter fst snd]. destruct (Bool.eqb b' b); reflexivity. Qed.

Lemma number_spec N T (l : list op) : (length (cols false l) <= N)%nat -> (length (cols true l) <= T)%nat ->
  (forall b i nm nm', In (b, i, nm) l -> ~ In (negb b, i, nm') l) ->
  exists s, for_each l do_op (no_slots N T) = Some s /\
    (forall b, var_of b s = length (cols b l)) /\
    nrow (sl_names s) = N /\ nrow (sl_tnames s) = T /\ ncol (sl_names s) = 1%nat /\ ncol (sl_tnames s) = 1%nat /\
    (forall b k i nm, nth_error (cols b l) k = Some (i, nm) -> dat (names_of b s) k 0 = Some nm) /\
    (forall b i k, last_at (map fst (cols b l)) i k -> sl_id s i = Some k) /\
    (forall i, (forall b nm, ~ In (b, i, nm) l) -> sl_id s i = None).
Proof.
  induction l as [|[[b i] nm] l IH] using rev_ind; intros HN HT Hk.
  - exists (no_slots N T). split; [reflexivity|]. split; [intros []; reflexivity|]. do 4 (split; [reflexivity|]).
    split; [intros [] [|k]; discriminate|]. split; [intros [] i k [H _]; destruct k; discriminate|reflexivity].
  - rewrite cols_app, app_length in HN, HT.
    destruct IH as (s & E & Hv & Hn1 & Hn2 & Hc1 & Hc2 & Hnm & Hid & Hno); [lia|lia|intros b' i' n1 n2 H1 H2; apply (Hk b' i' n1 n2); apply in_or_app; left; assumption|].
    rewrite for_each_app, E. cbn [obind for_each].
    assert (Hlast : forall i' k, i' <> i -> last_at (map fst (cols b (l ++ [(b, i, nm)]))) i' k -> last_at (map fst (cols b l)) i' k).
    { intros i' k Hne [H1 H2]. rewrite cols_app, map_app in H1, H2. rewrite cols_one, Bool.eqb_reflx in H1. cbn [map fst snd] in H1. destruct (Nat.lt_ge_cases k (length (map fst (cols b l)))) as [Hlt|Hge].
      - rewrite nth_error_app1 in H1 by exact Hlt. split; [exact H1|]. intros k' Hk' H3. apply (H2 k' Hk'). rewrite nth_error_app1; [exact H3|]. apply nth_error_Some. congruence.
      - rewrite nth_error_app2 in H1 by exact Hge. destruct (k - _)%nat as [|z]; [cbn in H1; congruence|destruct z; discriminate]. }
    assert (Hother : forall i' k, last_at (map fst (cols (negb b) (l ++ [(b, i, nm)]))) i' k -> i' <> i /\ last_at (map fst (cols (negb b) l)) i' k).
    { intros i' k. rewrite cols_app. rewrite cols_one. replace (Bool.eqb b (negb b)) with false by (destruct b; reflexivity).
      rewrite app_nil_r. intros H. split; [|exact H]. intros ->. destruct H as [H _]. apply nth_error_In in H. apply in_map_iff in H. destruct H as ([x y] & Hx & Hin).
      cbn in Hx. subst x. unfold cols in Hin. apply in_map_iff in Hin. destruct Hin as ([[b' z] y'] & Heq & Hin). cbn in Heq. injection Heq as -> ->.
      apply filter_In in Hin. destruct Hin as [Hin Hb]. cbn in Hb. apply Bool.eqb_prop in Hb. subst b'.
      apply (Hk b i nm y). { apply in_or_app. right. left. reflexivity. } apply in_or_app. left. exact Hin. }
    assert (Hself : forall k, last_at (map fst (cols b (l ++ [(b, i, nm)]))) i k -> k = length (cols b l)).
    { intros k [H1 H2]. rewrite cols_app, map_app in H1, H2. rewrite cols_one, Bool.eqb_reflx in H1, H2. cbn [map fst snd] in H1, H2. destruct (Nat.lt_trichotomy k (length (cols b l))) as [Hlt|[->|Hgt]]; [|reflexivity|].
      - exfalso. apply (H2 _ Hlt). rewrite nth_error_app2 by (rewrite map_length; lia). rewrite map_length, Nat.sub_diag. reflexivity.
      - rewrite nth_error_app2 in H1 by (rewrite map_length; lia). rewrite map_length in H1. destruct (k - _)%nat as [|z] eqn:Ez; [lia|destruct z; discriminate]. }
    assert (Hnames : forall k j n', nth_error (cols b (l ++ [(b, i, nm)])) k = Some (j, n') ->
              ((k < length (cols b l))%nat /\ nth_error (cols b l) k = Some (j, n')) \/ (k = length (cols b l) /\ n' = nm)).
    { intros k j n' H1. rewrite cols_app in H1. rewrite cols_one, Bool.eqb_reflx in H1. cbn [map fst snd] in H1.
      destruct (Nat.lt_ge_cases k (length (cols b l))) as [Hlt|Hge].
      - rewrite nth_error_app1 in H1 by exact Hlt. left. auto.
      - rewrite nth_error_app2 in H1 by exact Hge. right. destruct (k - _)%nat as [|z] eqn:Ez; [|destruct z; discriminate]. injection H1 as _ ->. split; [lia|reflexivity]. }
    assert (Hlen : forall b', length (cols b' (l ++ [(b, i, nm)])) = (length (cols b' l) + if Bool.eqb b b' then 1 else 0)%nat).
    { intros b'. rewrite cols_app, app_length. rewrite cols_one. destruct (Bool.eqb b b'); reflexivity. }
    pose proof (Hv true) as Hvt. pose proof (Hv false) as Hvf. cbn [var_of] in Hvt, Hvf.
    destruct b; cbn [negb] in *; unfold do_op; cbn [fst snd]; unfold tensor_slot, scalar_slot, aset.
    + rewrite cols_one in HT. cbn [Bool.eqb length] in HT. rewrite Hvt, Hn2, Hc2, (proj2 (Nat.ltb_lt _ T)) by lia. cbn [Nat.ltb Nat.leb andb obind].
      eexists. split; [reflexivity|]. cbn [sl_names sl_tnames sl_var sl_tvar sl_id nrow ncol dat].
      split. { intros []; rewrite Hlen; cbn [var_of sl_var sl_tvar Bool.eqb]; lia. }
      do 4 (split; [auto|]). split; [|split].
      * intros [] k j n' Hnth; cbn [names_of sl_names sl_tnames dat].
        -- destruct (Hnames _ _ _ Hnth) as [[Hlt Hnth']|[-> ->]]; [|rewrite !Nat.eqb_refl; reflexivity].
           rewrite (proj2 (Nat.eqb_neq _ _)) by lia. apply (Hnm true k j n' Hnth').
        -- rewrite cols_app in Hnth. rewrite cols_one in Hnth. cbn [Bool.eqb] in Hnth. rewrite app_nil_r in Hnth. apply (Hnm false k j n' Hnth).
      * intros [] j k Hl.
        -- destruct (dec j i) as [->|Hne]; [rewrite (Hself k Hl); reflexivity|]. apply (Hid true). apply Hlast; assumption.
        -- apply Hother in Hl. destruct Hl as [Hne Hl]. destruct (dec j i); [contradiction|]. apply (Hid false). exact Hl.
      * intros j Hj. destruct (dec j i) as [->|]. { exfalso. apply (Hj true nm). apply in_or_app. right. left. reflexivity. }
        apply Hno. intros b n' Hin. apply (Hj b n'). apply in_or_app. left. exact Hin.
    + rewrite cols_one in HN. cbn [Bool.eqb length] in HN. rewrite Hvf, Hn1, Hc1, (proj2 (Nat.ltb_lt _ N)) by lia. cbn [Nat.ltb Nat.leb andb obind].
      eexists. split; [reflexivity|]. cbn [sl_names sl_tnames sl_var sl_tvar sl_id nrow ncol dat].
      split. { intros []; rewrite Hlen; cbn [var_of sl_var sl_tvar Bool.eqb]; lia. }
      do 4 (split; [auto|]). split; [|split].
      * intros [] k j n' Hnth; cbn [names_of sl_names sl_tnames dat].
        -- rewrite cols_app in Hnth. rewrite cols_one in Hnth. cbn [Bool.eqb] in Hnth. rewrite app_nil_r in Hnth. apply (Hnm true k j n' Hnth).
        -- destruct (Hnames _ _ _ Hnth) as [[Hlt Hnth']|[-> ->]]; [|rewrite !Nat.eqb_refl; reflexivity].
           rewrite (proj2 (Nat.eqb_neq _ _)) by lia. apply (Hnm false k j n' Hnth').
      * intros [] j k Hl.
        -- apply Hother in Hl. destruct Hl as [Hne Hl]. destruct (dec j i); [contradiction|]. apply (Hid true). exact Hl.
        -- destruct (dec j i) as [->|Hne]; [rewrite (Hself k Hl); reflexivity|]. apply (Hid false). apply Hlast; assumption.
      * intros j Hj. destruct (dec j i) as [->|]. { exfalso. apply (Hj false nm). apply in_or_app. right. left. reflexivity. }
        apply Hno. intros b n' Hin. apply (Hj b n'). apply in_or_app. left. exact Hin.
Qed.

Lemma last_nodup l i k : NoDup l -> nth_error l k = Some i -> last_at l i k.
Proof.
  intros Hnd H. split; [exact H|]. intros k' Hk' H'. assert (k = k') by (eapply NoDup_nth_error; [exact Hnd|apply nth_error_Some; congruence|congruence]). lia.
Qed.
Lemma last_exists l i : In i l -> exists k, last_at l i k.
Proof.
  induction l as [|x l IH] using rev_ind; [intros []|]. intros Hin. destruct (dec x i) as [->|Hne].
  - exists (length l). split; [rewrite nth_error_app2, Nat.sub_diag by lia; reflexivity|]. intros k' Hk' H. assert (k' < length (l ++ [i]))%nat by (apply nth_error_Some; congruence).
    rewrite app_length in H0. cbn in H0. lia.
  - apply in_app_or in Hin. destruct Hin as [Hin|[->|[]]]; [|contradiction]. destruct (IH Hin) as (k & H1 & H2). exists k. split.
    + rewrite nth_error_app1; [exact H1|]. apply nth_error_Some. congruence.
    + intros k' Hk' H. destruct (Nat.lt_ge_cases k' (length l)) as [Hlt|Hge]; [rewrite nth_error_app1 in H by exact Hlt; exact (H2 k' Hk' H)|].
      rewrite nth_error_app2 in H by exact Hge. destruct (k' - length l)%nat as [|z]; [cbn in H; congruence|destruct z; discriminate].
Qed.
End Slots.

(** *** Loops *)
Lemma for_each_flat {A B S} (l : list A) (body : A -> S -> option S) (W : A -> list B) (b : B -> S -> option S) s :
  (forall x s, In x l -> body x s = for_each (W x) b s) -> for_each l body s = for_each (flat_map W l) b s.
Proof.
  revert s. induction l as [|x l IH]; intros s H; [reflexivity|]. cbn [for_each flat_map]. rewrite for_each_app, (H x s) by (left; reflexivity).
  destruct (for_each (W x) b s) as [s'|]; [|reflexivity]. cbn [obind]. apply IH. intros; apply H; right; assumption.
Qed.

Lemma for_each_one {A S} (x : A) (b : A -> S -> option S) s : for_each [x] b s = b x s.
Proof. cbn [for_each]. destruct (b x s); reflexivity. Qed.

Lemma count_filter {F} (p : F -> bool) fs : count p fs = length (filter p fs).
Proof.
  unfold count. enough (G : forall n, fold_left (fun n f => if p f then S n else n) fs n = (n + length (filter p fs))%nat) by (rewrite G; reflexivity).
  induction fs as [|f fs IH]; intros n; cbn [fold_left filter length]; [lia|]. rewrite IH. destruct (p f); cbn [length]; lia.
Qed.

(** *** Arrays filled with values *)
Definition holds (a : arr R) (r c : nat) (F : nat -> nat -> R) : Prop :=
  nrow a = r /\ ncol a = c /\ forall i j, (i < r)%nat -> (j < c)%nat -> dat a i j = Some (F i j).

Lemma holds_ext a r c F F' : holds a r c F -> (forall i j, (i < r)%nat -> (j < c)%nat -> F i j = F' i j) -> holds a r c F'.
Proof. intros (H1 & H2 & H3) H. split; [exact H1|]. split; [exact H2|]. intros i j Hi Hj. rewrite H3, H by assumption. reflexivity. Qed.
Lemma holds_get a r c F i j : holds a r c F -> (i < r)%nat -> (j < c)%nat -> aget a i j = Some (F i j).
Proof. intros (H1 & H2 & H3) Hi Hj. unfold aget. rewrite H1, H2, (proj2 (Nat.ltb_lt _ _) Hi), (proj2 (Nat.ltb_lt _ _) Hj). apply H3; assumption. Qed.
Lemma holds_set a r c F i j v : holds a r c F -> (i < r)%nat -> (j < c)%nat ->
  exists a', aset a i j v = Some a' /\ holds a' r c (fun x y => if Nat.eqb x i && Nat.eqb y j then v else F x y).
Proof.
  intros (H1 & H2 & H3) Hi Hj. unfold aset. rewrite H1, H2, (proj2 (Nat.ltb_lt _ _) Hi), (proj2 (Nat.ltb_lt _ _) Hj). cbn [andb].
  eexists. split; [reflexivity|]. split; [reflexivity|]. split; [reflexivity|]. intros x y Hx Hy. cbn [dat]. rewrite H3 by assumption.
  destruct (Nat.eqb x i && Nat.eqb y j); reflexivity.
Qed.
Lemma holds_zeros r c : holds (zeros r c) r c (fun _ _ => 0).
Proof. split; [reflexivity|]. split; reflexivity. Qed.

Definition do_adds (w : list (write R)) (a : arr R) : option (arr R) := for_each w (fun '(r, c, v) a => addto a r c v) a.
Definition at_ (x y : nat) (w : write R) : R := if Nat.eqb x (fst (fst w)) && Nat.eqb y (snd (fst w)) then snd w else 0.
Lemma adds_holds w : forall a r c F, holds a r c F -> (forall i j v, In (i, j, v) w -> (i < r)%nat /\ (j < c)%nat) ->
  exists a', do_adds w a = Some a' /\ holds a' r c (fun x y => F x y + suml (at_ x y) w).
Proof.
  induction w as [|[[i j] v] w IH]; intros a r c F Ha Hw.
  - exists a. split; [reflexivity|]. apply (holds_ext _ _ _ _ _ Ha). intros. cbn. ring.
  - destruct (Hw i j v (or_introl eq_refl)) as [Hi Hj]. unfold do_adds. cbn [for_each]. unfold addto. rewrite (holds_get _ _ _ _ _ _ Ha Hi Hj). cbn [obind].
    destruct (holds_set _ _ _ _ _ _ (F i j + v) Ha Hi Hj) as (a1 & E1 & H1). rewrite E1. cbn [obind].
    destruct (IH a1 r c _ H1) as (a2 & E2 & H2). { intros i' j' v' Hin. apply (Hw i' j' v'). right. exact Hin. }
    exists a2. split; [exact E2|]. apply (holds_ext _ _ _ _ _ H2). intros x y Hx Hy. rewrite suml_cons. unfold at_ at 2. cbn [fst snd].
    destruct (Nat.eqb_spec x i) as [->|]; [destruct (Nat.eqb_spec y j) as [->|]|]; cbn [andb]; ring.
Qed.

Definition do_puts (w : list (write R)) (a : arr R) : option (arr R) := do_writes w a.
Lemma puts_holds w a r c F : holds a r c F -> (forall i j v, In (i, j, v) w -> (i < r)%nat /\ (j < c)%nat) -> functional w ->
  exists a' F', do_writes w a = Some a' /\ holds a' r c F' /\
    (forall i j v, In (i, j, v) w -> F' i j = v) /\ (forall i j, (i < r)%nat -> (j < c)%nat -> (forall v, ~ In (i, j, v) w) -> F' i j = F i j).
Proof.
  intros (H1 & H2 & H3) Hw Hf. destruct (@do_writes_some R w a) as (a' & E & Hr & Hc & Hother & Hin). { intros i j v Hi. rewrite H1, H2. apply (Hw i j v Hi). }
  exists a', (fun i j => match dat a' i j with Some x => x | None => 0 end). split; [exact E|]. split.
  - split; [congruence|]. split; [congruence|]. intros i j Hi Hj.
    destruct (in_dec natpair_dec (i, j) (map fst w)) as [Hm|Hm].
    + apply in_map_iff in Hm. destruct Hm as ([[i' j'] v] & Heq & Hm). cbn in Heq. injection Heq as -> ->. rewrite (Hin Hf _ _ _ Hm). reflexivity.
    + rewrite Hother, H3 by (try assumption; intros v Hv; apply Hm; apply in_map_iff; exists (i, j, v); auto). reflexivity.
  - split.
    + intros i j v Hi. rewrite (Hin Hf _ _ _ Hi). reflexivity.
    + intros i j Hi Hj Hno. rewrite Hother, H3 by assumption. reflexivity.
Qed.

(** *** Sums with one term *)
Lemma suml_none {A} (f : A -> R) l : (forall x, In x l -> f x = 0) -> suml f l = 0.
Proof. intros H. rewrite (suml_ext f (fun _ => 0)) by exact H. apply suml_0. Qed.
Lemma suml_unique {A} (f : A -> R) l x0 : NoDup l -> In x0 l -> (forall x, In x l -> x <> x0 -> f x = 0) -> suml f l = f x0.
Proof.
  induction l as [|x l IH]; intros Hnd Hin H; [destruct Hin|]. inversion Hnd; subst. rewrite suml_cons. destruct Hin as [->|Hin].
  - rewrite suml_none; [ring|]. intros y Hy. apply H; [right; exact Hy|]. intros ->. contradiction.
  - rewrite (H x) by (try (left; reflexivity); intros ->; contradiction). rewrite IH; [ring|assumption|assumption|]. intros y Hy. apply H. right. exact Hy.
Qed.
Lemma suml_one {A} (f : A -> R) x : suml f [x] = f x.
Proof. rewrite suml_cons. cbn. ring. Qed.
Lemma suml_flat {A B} (f : B -> R) (g : A -> list B) l : suml f (flat_map g l) = suml (fun x => suml f (g x)) l.
Proof. induction l as [|x l IH]; [reflexivity|]. cbn [flat_map]. rewrite suml_app, suml_cons, IH. reflexivity. Qed.
Lemma suml_filter {A} (f : A -> R) (p : A -> bool) l : suml f (filter p l) = suml (fun x => if p x then f x else 0) l.
Proof. induction l as [|x l IH]; [reflexivity|]. cbn [filter]. rewrite suml_cons. destruct (p x); [rewrite suml_cons, IH; reflexivity|]. rewrite IH. ring. Qed.

(** *** Positions in a row *)
Definition offs (b : bool) : list (nat * nat) := if b then nine else [(0, 0)]%nat.
Definition col (b : bool) (e i j : nat) : nat := if b then (e * 9 + 3 * i + j)%nat else e.
Definition width (b : bool) (ne : nat) : nat := if b then (ne * 9)%nat else ne.
Lemma in_nine i j : In (i, j) nine <-> (i < 3)%nat /\ (j < 3)%nat.
Proof. unfold nine. rewrite in_flat_map_seq. split.
  - intros (x & Hx & Hin). apply in_map_iff in Hin. destruct Hin as (y & Heq & Hy). apply in_seq in Hy. injection Heq as <- <-. lia.
  - intros [Hi Hj]. exists i. split; [lia|]. apply in_map_iff. exists j. split; [reflexivity|]. apply in_seq. lia.
Qed.
Lemma nodup_offs b : NoDup (offs b).
Proof. destruct b; cbn; repeat constructor; cbn; intuition congruence. Qed.
Lemma col_inj b e i j e' i' j' : In (i, j) (offs b) -> In (i', j') (offs b) -> col b e i j = col b e' i' j' -> e = e' /\ i = i' /\ j = j'.
Proof.
  destruct b; cbn [offs col].
  - rewrite !in_nine. lia.
  - intros [H|[]] [H'|[]] ->. injection H as <- <-. injection H' as <- <-. auto.
Qed.
Lemma col_lt b e i j ne : In (i, j) (offs b) -> (e < ne)%nat -> (col b e i j < width b ne)%nat.
Proof. destruct b; cbn [offs col width]; [rewrite in_nine; lia|]. intros _ H. exact H. Qed.

Section Elem.
Variables (ne : nat) (L : layout) (Q : nat -> nat -> mpoint) (V : elemv) (fs : list efield) (gs : list gfield) (sched : nat -> efield -> list nat).
Hypothesis Hlayout : layout_ok ne L.
Hypothesis Hsched : elem_sched L sched.

Definition efield_dec (x y : efield) : {x = y} + {x <> y}.
Proof. decide equality. Defined.
Definition gfield_dec (x y : gfield) : {x = y} + {x <> y}.
Proof. decide equality. Defined.
Definition ecl (b : bool) : list efield := filter (fun f => Bool.eqb (tensor_field f) b) fs.
Definition gcl (b : bool) : list gfield := filter (fun g => Bool.eqb (tensor_gfield g) b) gs.
Definition rows (b : bool) : nat := (length (ecl b) + length (gcl b))%nat.

Record slots_ok (sl : slots ekey) : Prop := {
  so_e : forall f, In f fs -> exists k, sl_id sl (E f) = Some k /\ last_at (ecl (tensor_field f)) f k;
  so_g : forall g, In g gs -> exists k, sl_id sl (G g) = Some (length (ecl (tensor_gfield g)) + k)%nat /\ last_at (gcl (tensor_gfield g)) g k;
  so_no : forall f, ~ In f fs -> sl_id sl (E f) = None;
  so_rows : forall b, nrow (names_of b sl) = rows b /\ ncol (names_of b sl) = 1%nat;
  so_ename : forall b k f, nth_error (ecl b) k = Some f -> dat (names_of b sl) k 0 = Some (ename f);
  so_gname : forall b k g, nth_error (gcl b) k = Some g -> dat (names_of b sl) (length (ecl b) + k)%nat 0 = Some (gname g) }.

Definition eop (f : efield) : op := (tensor_field f, E f, ename f).
Definition gop (g : gfield) : op := (tensor_gfield g, G g, gname g).

Lemma cols_elem b : cols b (map eop fs ++ map gop gs) = (map (fun f => (E f, ename f)) (ecl b) ++ map (fun g => (G g, gname g)) (gcl b))%list.
Proof.
  rewrite cols_app. unfold ecl, gcl. f_equal; unfold cols.
  - induction fs as [|f l IH]; [reflexivity|]. cbn [map filter]. unfold eop at 1. cbn [fst snd]. destruct (Bool.eqb (tensor_field f) b); cbn [map fst snd]; [now f_equal|exact IH].
  - induction gs as [|f l IH]; [reflexivity|]. cbn [map filter]. unfold gop at 1. cbn [fst snd]. destruct (Bool.eqb (tensor_gfield f) b); cbn [map fst snd]; [now f_equal|exact IH].
Qed.

Lemma elem_slots_spec : exists sl, elem_slots fs gs = Some sl /\ slots_ok sl.
Proof.
  assert (Hs : num_elem_scalars fs gs = rows false).
  { unfold num_elem_scalars, rows, ecl, gcl. rewrite !count_filter. f_equal; f_equal; apply filter_ext; intros []; reflexivity. }
  assert (Ht : num_elem_tensors fs gs = rows true).
  { unfold num_elem_tensors, rows, ecl, gcl. rewrite !count_filter. f_equal; f_equal; apply filter_ext; intros []; reflexivity. }
  assert (Hl : forall b, length (cols b (map eop fs ++ map gop gs)) = rows b). { intros b. rewrite cols_elem, app_length, !map_length. reflexivity. }
  destruct (number_spec ekey_dec (rows false) (rows true) (map eop fs ++ map gop gs)) as (sl & Esl & _ & H1 & H2 & H3 & H4 & Hn & Hi & Hno).
  { rewrite Hl. lia. } { rewrite Hl. lia. }
  { intros b i nm nm' Hin Hin'. apply in_app_or in Hin. apply in_app_or in Hin'. rewrite !in_map_iff in Hin, Hin'. unfold eop, gop in Hin, Hin'.
    destruct Hin as [(x & Hx & _)|(x & Hx & _)], Hin' as [(y & Hy & _)|(y & Hy & _)]; inversion Hx; subst; inversion Hy; subst;
      match goal with H : ?t ?z = negb (?t ?z) |- _ => destruct z; discriminate H end. }
  exists sl. split.
  { unfold elem_slots. rewrite Hs, Ht. rewrite <- Esl, for_each_app.
    assert (E1 : forall s, for_each (map eop fs) (do_op ekey_dec) s = for_each fs slot_e s).
    { intros s. rewrite (for_each_flat fs slot_e (fun f => [eop f]) (do_op ekey_dec)).
      - replace (flat_map (fun f => [eop f]) fs) with (map eop fs); [reflexivity|]. clear. induction fs as [|f l IH]; [reflexivity|]. cbn. now f_equal.
      - intros f s' _. rewrite for_each_one. reflexivity. }
    assert (E2 : forall s, for_each (map gop gs) (do_op ekey_dec) s = for_each gs slot_g s).
    { intros s. rewrite (for_each_flat gs slot_g (fun f => [gop f]) (do_op ekey_dec)).
      - replace (flat_map (fun f => [gop f]) gs) with (map gop gs); [reflexivity|]. clear. induction gs as [|f l IH]; [reflexivity|]. cbn. now f_equal.
      - intros f s' _. rewrite for_each_one. reflexivity. }
    rewrite E1. destruct (for_each fs slot_e _) as [s|]; [|reflexivity]. cbn [obind]. symmetry. apply E2. }
  assert (Hcols : forall b, map fst (cols b (map eop fs ++ map gop gs)) = (map E (ecl b) ++ map G (gcl b))%list).
  { intros b. rewrite cols_elem, map_app, !map_map. reflexivity. }
  constructor.
  - intros f Hf. destruct (last_exists efield_dec (ecl (tensor_field f)) f) as (k & Hk1 & Hk2).
    { unfold ecl. apply filter_In. split; [exact Hf|]. apply Bool.eqb_reflx. }
    exists k. split; [|split; assumption]. apply (Hi (tensor_field f)). rewrite Hcols. split.
    + rewrite nth_error_app1 by (rewrite map_length; apply nth_error_Some; congruence). rewrite nth_error_map, Hk1. reflexivity.
    + intros k' Hk' H. destruct (Nat.lt_ge_cases k' (length (map E (ecl (tensor_field f))))) as [Hlt|Hge].
      * rewrite nth_error_app1 in H by exact Hlt. rewrite nth_error_map in H. destruct (nth_error (ecl (tensor_field f)) k') as [f'|] eqn:Ef; [|discriminate].
        injection H as ->. exact (Hk2 k' Hk' Ef).
      * rewrite nth_error_app2 in H by exact Hge. rewrite nth_error_map in H. destruct (nth_error (gcl _) _); discriminate.
  - intros g Hg. destruct (last_exists gfield_dec (gcl (tensor_gfield g)) g) as (k & Hk1 & Hk2).
    { unfold gcl. apply filter_In. split; [exact Hg|]. apply Bool.eqb_reflx. }
    exists k. split; [|split; assumption]. apply (Hi (tensor_gfield g)). rewrite Hcols. split.
    + rewrite nth_error_app2 by (rewrite map_length; lia). rewrite map_length. replace (length _ + k - length _)%nat with k by lia. rewrite nth_error_map, Hk1. reflexivity.
    + intros k' Hk' H. rewrite nth_error_app2 in H by (rewrite map_length; lia). rewrite map_length, nth_error_map in H.
      destruct (nth_error (gcl (tensor_gfield g)) (k' - length (ecl (tensor_gfield g)))) as [g'|] eqn:Eg; [|discriminate]. injection H as ->.
      exact (Hk2 (k' - length (ecl (tensor_gfield g)))%nat ltac:(clear - Hk'; lia) Eg).
  - intros f Hf. apply Hno. intros b nm Hin. apply in_app_or in Hin. rewrite !in_map_iff in Hin. destruct Hin as [(x & Hx & Hin)|(x & Hx & Hin)]; [|discriminate].
    injection Hx as _ -> _. contradiction.
  - intros []; cbn [names_of]; auto.
  - intros b k f Hk. apply (Hn b k (E f)). rewrite cols_elem, nth_error_app1 by (rewrite map_length; apply nth_error_Some; congruence). rewrite nth_error_map, Hk. reflexivity.
  - intros b k g Hk. apply (Hn b _ (G g)). rewrite cols_elem, nth_error_app2 by (rewrite map_length; lia). rewrite map_length.
    replace (length _ + k - length _)%nat with k by lia. rewrite nth_error_map, Hk. reflexivity.
Qed.

(** *** Values *)
Definition gval (g : gfield) (e i j : nat) : R := match g with Vol => g_vol V e | Level => g_level V e | VelGrad => g_velgrad V e i j end.
Definition slot_of (sl : slots ekey) (x : ekey) : nat := match sl_id sl x with Some k => k | None => O end.
Definition adds (sl : slots ekey) (b : bool) (mat : nat) (f : efield) : list (write R) :=
  if Bool.eqb (tensor_field f) b
  then flat_map (fun sid => map (fun '(i, j) => (slot_of sl (E f), col b (elem_in_mat L mat sid) i j, term f (Q mat sid) i j)) (offs b)) (sched mat f)
  else [].
Definition puts (sl : slots ekey) (b : bool) (g : gfield) : list (write R) :=
  if Bool.eqb (tensor_gfield g) b
  then flat_map (fun e => map (fun '(i, j) => (slot_of sl (G g), col b e i j, gval g e i j)) (offs b)) (seq 0 ne)
  else [].

Lemma for_each_adds {X} (l : list X) (body : X -> arr R -> option (arr R)) (W : X -> list (write R)) a :
  (forall x a, In x l -> body x a = do_adds (W x) a) -> for_each l body a = do_adds (flat_map W l) a.
Proof. intros H. unfold do_adds. apply for_each_flat. exact H. Qed.
Lemma do_adds_app w w' a : do_adds (w ++ w') a = obind (do_adds w a) (do_adds w').
Proof. apply for_each_app. Qed.
Lemma do_writes_app (w w' : list (write R)) a : do_writes (w ++ w') a = obind (do_writes w a) (do_writes w').
Proof. apply for_each_app. Qed.

Lemma add_field_adds sl mat f s t : slots_ok sl -> In f fs ->
  add_field L Q (sl_id sl) mat (sched mat f) f (s, t) =
  obind (do_adds (adds sl false mat f) s) (fun s => obind (do_adds (adds sl true mat f) t) (fun t => Some (s, t))).
Proof.
  intros Hok Hf. destruct (so_e _ Hok f Hf) as (k & Ek & _). unfold add_field, adds, slot_of. rewrite Ek. cbn [obind fst snd].
  destruct (tensor_field f) eqn:Et; cbn [Bool.eqb].
  - cbn [do_adds for_each obind offs]. f_equal. apply for_each_adds. intros sid a _. unfold do_adds. cbn [for_each map nine flat_map seq app]. reflexivity.
  - rewrite (for_each_adds (sched mat f) _ (fun sid => map (fun '(i, j) => (k, col false (elem_in_mat L mat sid) i j, term f (Q mat sid) i j)) (offs false))).
    + destruct (do_adds _ s) as [s'|]; reflexivity.
    + intros sid a _. unfold do_adds. cbn [for_each map offs col]. destruct (addto _ _ _ _); reflexivity.
Qed.

Lemma put_gauss_puts sl g s t : slots_ok sl -> In g gs ->
  put_gauss ne V (sl_id sl) g (s, t) =
  obind (do_writes (puts sl false g) s) (fun s => obind (do_writes (puts sl true g) t) (fun t => Some (s, t))).
Proof.
  intros Hok Hg. destruct (so_g _ Hok g Hg) as (k & Ek & _). unfold put_gauss, puts, slot_of, for_up. rewrite Ek. cbn [obind fst snd]. set (kk := (_ + k)%nat).
  destruct g; cbn [tensor_gfield Bool.eqb].
  - rewrite (for_each_writes (seq 0 ne) _ (fun e => map (fun '(i, j) => (kk, col false e i j, gval Vol e i j)) (offs false))).
    + destruct (do_writes _ s) as [s'|]; reflexivity.
    + intros e a _. unfold do_writes. cbn [for_each map offs col gval]. destruct (aset _ _ _ _); reflexivity.
  - rewrite (for_each_writes (seq 0 ne) _ (fun e => map (fun '(i, j) => (kk, col false e i j, gval Level e i j)) (offs false))).
    + destruct (do_writes _ s) as [s'|]; reflexivity.
    + intros e a _. unfold do_writes. cbn [for_each map offs col gval]. destruct (aset _ _ _ _); reflexivity.
  - cbn [do_writes for_each obind offs]. f_equal. apply for_each_writes. intros e a _. unfold do_writes. cbn [for_each map nine flat_map seq app]. reflexivity.
Qed.

Lemma fields_adds sl mat : slots_ok sl -> forall l s t, incl l fs ->
  (exists s' t', do_adds (flat_map (adds sl false mat) l) s = Some s' /\ do_adds (flat_map (adds sl true mat) l) t = Some t') ->
  for_each l (fun f => add_field L Q (sl_id sl) mat (sched mat f) f) (s, t) =
  obind (do_adds (flat_map (adds sl false mat) l) s) (fun s => obind (do_adds (flat_map (adds sl true mat) l) t) (fun t => Some (s, t))).
Proof.
  intros Hok. induction l as [|f l IH]; intros s t Hl (s' & t' & Es & Et); [reflexivity|].
  cbn [flat_map] in Es, Et. rewrite do_adds_app in Es, Et. cbn [for_each flat_map]. rewrite !do_adds_app, add_field_adds by (try assumption; apply Hl; left; reflexivity).
  destruct (do_adds (adds sl false mat f) s) as [s1|]; [|discriminate]. destruct (do_adds (adds sl true mat f) t) as [t1|]; [|discriminate]. cbn [obind] in *.
  apply IH; [intros x Hx; apply Hl; right; exact Hx|]. exists s', t'. auto.
Qed.
Lemma gauss_puts sl : slots_ok sl -> forall l s t, incl l gs ->
  (exists s' t', do_writes (flat_map (puts sl false) l) s = Some s' /\ do_writes (flat_map (puts sl true) l) t = Some t') ->
  for_each l (put_gauss ne V (sl_id sl)) (s, t) =
  obind (do_writes (flat_map (puts sl false) l) s) (fun s => obind (do_writes (flat_map (puts sl true) l) t) (fun t => Some (s, t))).
Proof.
  intros Hok. induction l as [|f l IH]; intros s t Hl (s' & t' & Es & Et); [reflexivity|].
  cbn [flat_map] in Es, Et. rewrite do_writes_app in Es, Et. cbn [for_each flat_map]. rewrite !do_writes_app, put_gauss_puts by (try assumption; apply Hl; left; reflexivity).
  destruct (do_writes (puts sl false f) s) as [s1|]; [|discriminate]. destruct (do_writes (puts sl true f) t) as [t1|]; [|discriminate]. cbn [obind] in *.
  apply IH; [intros x Hx; apply Hl; right; exact Hx|]. exists s', t'. auto.
Qed.

Definition mult (sl : slots ekey) (f : efield) (k : nat) : R := if Nat.eqb (slot_of sl (E f)) k then INR (count_occ efield_dec fs f) else 0.
Definition part (f : efield) (mat e i j : nat) : R := suml (fun sid => if Nat.eqb (elem_in_mat L mat sid) e then term f (Q mat sid) i j else 0) (sched mat f).

Lemma ecl_in b k f : nth_error (ecl b) k = Some f -> In f fs /\ tensor_field f = b.
Proof. intros H. apply nth_error_In in H. unfold ecl in H. apply filter_In in H. destruct H as [H1 H2]. split; [exact H1|]. apply Bool.eqb_prop. exact H2. Qed.
Lemma gcl_in b k g : nth_error (gcl b) k = Some g -> In g gs /\ tensor_gfield g = b.
Proof. intros H. apply nth_error_In in H. unfold gcl in H. apply filter_In in H. destruct H as [H1 H2]. split; [exact H1|]. apply Bool.eqb_prop. exact H2. Qed.

Lemma suml_count (f : efield) c l : suml (fun x => if efield_dec x f then c else 0) l = INR (count_occ efield_dec l f) * c.
Proof.
  induction l as [|x l IH]; [cbn; ring|]. rewrite suml_cons, IH. cbn [count_occ]. destruct (efield_dec x f); [rewrite S_INR|]; ring.
Qed.

Lemma adds_row sl b mat f i j v : slots_ok sl -> In f fs -> In (i, j, v) (adds sl b mat f) ->
  tensor_field f = b /\ i = slot_of sl (E f) /\ last_at (ecl b) f i /\ (i < length (ecl b))%nat /\
  exists sid, In sid (sched mat f) /\ exists i' j', In (i', j') (offs b) /\ j = col b (elem_in_mat L mat sid) i' j'.
Proof.
  intros Hok Hf Hin. unfold adds in Hin. destruct (Bool.eqb (tensor_field f) b) eqn:Eb; [|destruct Hin]. apply Bool.eqb_prop in Eb.
  apply in_flat_map in Hin. destruct Hin as (sid & Hsid & Hin). apply in_map_iff in Hin. destruct Hin as ([i' j'] & Heq & Ho). injection Heq as <- <- _.
  destruct (so_e _ Hok f Hf) as (k & Ek & Hk). rewrite Eb in Hk. unfold slot_of. rewrite Ek. split; [exact Eb|]. split; [reflexivity|]. split; [exact Hk|].
  split; [apply nth_error_Some; destruct Hk; congruence|]. exists sid. split; [exact Hsid|]. exists i', j'. auto.
Qed.
Lemma puts_row sl b g i j v : slots_ok sl -> In g gs -> In (i, j, v) (puts sl b g) ->
  tensor_gfield g = b /\ i = slot_of sl (G g) /\ (length (ecl b) <= i)%nat /\ last_at (gcl b) g (i - length (ecl b))%nat /\ (i < rows b)%nat /\
  exists e i' j', (e < ne)%nat /\ In (i', j') (offs b) /\ j = col b e i' j' /\ v = gval g e i' j'.
Proof.
  intros Hok Hg Hin. unfold puts in Hin. destruct (Bool.eqb (tensor_gfield g) b) eqn:Eb; [|destruct Hin]. apply Bool.eqb_prop in Eb.
  apply in_flat_map in Hin. destruct Hin as (e & He & Hin). apply in_seq in He. apply in_map_iff in Hin. destruct Hin as ([i' j'] & Heq & Ho). injection Heq as <- <- <-.
  destruct (so_g _ Hok g Hg) as (k & Ek & Hk). rewrite Eb in Ek, Hk. unfold slot_of. rewrite Ek. split; [exact Eb|]. split; [reflexivity|]. split; [lia|].
  replace (length (ecl b) + k - length (ecl b))%nat with k by lia. split; [exact Hk|].
  split; [unfold rows; destruct Hk as [Hk _]; assert (k < length (gcl b))%nat by (apply nth_error_Some; congruence); lia|].
  exists e, i', j'. repeat split; auto; lia.
Qed.

Lemma sum_adds sl b mat f k e i j : slots_ok sl -> nth_error (ecl b) k = Some f -> In (i, j) (offs b) ->
  suml (at_ k (col b e i j)) (flat_map (adds sl b mat) fs) = mult sl f k * part f mat e i j.
Proof.
  intros Hok Hk Ho. destruct (ecl_in _ _ _ Hk) as [Hf Hb]. rewrite suml_flat.
  rewrite (suml_ext _ (fun x => if efield_dec x f then (if Nat.eqb (slot_of sl (E f)) k then part f mat e i j else 0) else 0)).
  - rewrite suml_count. unfold mult. destruct (Nat.eqb _ k); ring.
  - intros x Hx. destruct (efield_dec x f) as [->|Hne].
    + unfold adds. rewrite Hb, Bool.eqb_reflx. rewrite suml_flat. destruct (Nat.eqb_spec (slot_of sl (E f)) k) as [Es|Es].
      * apply suml_ext. intros sid _. rewrite suml_map. destruct (Nat.eqb_spec (elem_in_mat L mat sid) e) as [->|Hne].
        -- rewrite (suml_unique _ (offs b) (i, j)); [|apply nodup_offs|exact Ho|].
           ++ unfold at_. cbn [fst snd]. rewrite Es, !Nat.eqb_refl. reflexivity.
           ++ intros [i' j'] Hin Hd. unfold at_. cbn [fst snd]. destruct (Nat.eqb_spec (col b e i j) (col b e i' j')) as [Ec|]; [|rewrite andb_false_r; reflexivity].
              apply col_inj in Ec; [|assumption|assumption]. destruct Ec as (_ & -> & ->). contradiction.
        -- apply suml_none. intros [i' j'] Hin. unfold at_. cbn [fst snd]. destruct (Nat.eqb_spec (col b e i j) (col b (elem_in_mat L mat sid) i' j')) as [Ec|]; [|rewrite andb_false_r; reflexivity].
           apply col_inj in Ec; [|assumption|assumption]. destruct Ec as (-> & _). contradiction.
      * apply suml_none. intros sid _. rewrite suml_map. apply suml_none. intros [i' j'] _. unfold at_. cbn [fst snd]. rewrite (proj2 (Nat.eqb_neq k _)) by congruence. reflexivity.
    + apply suml_none. intros [[i' j'] v] Hin. unfold at_. cbn [fst snd]. destruct (adds_row _ _ _ _ _ _ _ Hok Hx Hin) as (_ & _ & [Hl _] & _).
      destruct (Nat.eqb_spec k i') as [<-|]; [|reflexivity]. congruence.
Qed.

Definition sel (b : bool) (a : arr R * arr R) : arr R := if b then snd a else fst a.

Lemma step_spec sl mat a F : slots_ok sl -> (mat < num_mats L)%nat -> (forall b, holds (sel b a) (rows b) (width b ne) (F b)) ->
  exists a' F', concat_mat ne L Q V fs gs sl sched mat a = Some a' /\ (forall b, holds (sel b a') (rows b) (width b ne) (F' b)) /\
    (forall b k f e i j, nth_error (ecl b) k = Some f -> (e < ne)%nat -> In (i, j) (offs b) -> F' b k (col b e i j) = F b k (col b e i j) + mult sl f k * part f mat e i j) /\
    (forall b g e i j, In g gs -> tensor_gfield g = b -> (e < ne)%nat -> In (i, j) (offs b) -> F' b (slot_of sl (G g)) (col b e i j) = gval g e i j).
Proof.
  intros Hok Hm HF. destruct a as [s t].
  assert (Hr : forall b i j v, In (i, j, v) (flat_map (adds sl b mat) fs) -> (i < rows b)%nat /\ (j < width b ne)%nat).
  { intros b i j v Hin. apply in_flat_map in Hin. destruct Hin as (f & Hf & Hin). destruct (adds_row _ _ _ _ _ _ _ Hok Hf Hin) as (_ & _ & _ & Hi & sid & Hsid & i' & j' & Ho & ->).
    split; [unfold rows; lia|]. apply col_lt; [exact Ho|]. apply (Hlayout (mat, sid)). unfold points. apply in_flat_map. exists mat. split; [apply in_seq; lia|].
    apply in_map_iff. exists sid. split; [reflexivity|]. apply (Permutation_in _ (Hsched mat f Hm)). exact Hsid. }
  destruct (adds_holds _ _ _ _ _ (HF false) (Hr false)) as (s1 & Es1 & Hs1). destruct (adds_holds _ _ _ _ _ (HF true) (Hr true)) as (t1 & Et1 & Ht1).
  cbn [sel fst snd] in Es1, Et1.
  assert (Hp : forall b i j v, In (i, j, v) (flat_map (puts sl b) gs) -> (i < rows b)%nat /\ (j < width b ne)%nat).
  { intros b i j v Hin. apply in_flat_map in Hin. destruct Hin as (g & Hg & Hin). destruct (puts_row _ _ _ _ _ _ Hok Hg Hin) as (_ & _ & _ & _ & Hi & e & i' & j' & He & Ho & -> & _).
    split; [exact Hi|]. apply col_lt; assumption. }
  assert (Hfun : forall b, functional (flat_map (puts sl b) gs)).
  { intros b i j v v' H1 H2. apply in_flat_map in H1, H2. destruct H1 as (g & Hg & H1), H2 as (g' & Hg' & H2).
    destruct (puts_row _ _ _ _ _ _ Hok Hg H1) as (_ & _ & _ & [L1 _] & _ & e & i1 & j1 & _ & O1 & E1 & ->).
    destruct (puts_row _ _ _ _ _ _ Hok Hg' H2) as (_ & _ & _ & [L2 _] & _ & e' & i2 & j2 & _ & O2 & E2 & ->).
    rewrite E1 in E2. apply col_inj in E2; [|assumption|assumption]. destruct E2 as (-> & -> & ->). congruence. }
  destruct (puts_holds _ _ _ _ _ Hs1 (Hp false) (Hfun false)) as (s2 & G0 & Es2 & Hs2 & Hin0 & Hout0).
  destruct (puts_holds _ _ _ _ _ Ht1 (Hp true) (Hfun true)) as (t2 & G1 & Et2 & Ht2 & Hin1 & Hout1).
  exists (s2, t2), (fun b : bool => if b then G1 else G0). split.
  { unfold concat_mat. rewrite fields_adds; [|exact Hok|apply incl_refl|exists s1, t1; auto]. rewrite Es1. cbn [obind]. rewrite Et1. cbn [obind].
    rewrite gauss_puts; [|exact Hok|apply incl_refl|exists s2, t2; auto]. rewrite Es2. cbn [obind]. rewrite Et2. reflexivity. }
  split. { intros []; cbn [sel fst snd]; assumption. }
  assert (Hno : forall b k f, nth_error (ecl b) k = Some f -> forall c v, ~ In (k, c, v) (flat_map (puts sl b) gs)).
  { intros b k f Hk c v Hin. apply in_flat_map in Hin. destruct Hin as (g & Hg & Hin). destruct (puts_row _ _ _ _ _ _ Hok Hg Hin) as (_ & _ & Hle & _).
    assert (k < length (ecl b))%nat by (apply nth_error_Some; congruence). lia. }
  split.
  - intros b k f e i j Hk He Ho. rewrite <- (sum_adds sl b mat f k e i j Hok Hk Ho).
    assert (Hkr : (k < rows b)%nat) by (unfold rows; assert (k < length (ecl b))%nat by (apply nth_error_Some; rewrite Hk; discriminate); lia).
    pose proof (col_lt b e i j ne Ho He). destruct b; [apply (Hout1 k (col true e i j))|apply (Hout0 k (col false e i j))]; try assumption; intros v; [exact (Hno true k f Hk _ v)|exact (Hno false k f Hk _ v)].
  - intros b g e i j Hg Hb He Ho.
    assert (Hin : In (slot_of sl (G g), col b e i j, gval g e i j) (flat_map (puts sl b) gs)).
    { apply in_flat_map. exists g. split; [exact Hg|]. unfold puts. rewrite Hb, Bool.eqb_reflx. apply in_flat_map. exists e. split; [apply in_seq; lia|].
      apply in_map_iff. exists (i, j). auto. }
    destruct b; [apply (Hin1 _ _ _ Hin)|apply (Hin0 _ _ _ Hin)].
Qed.

Lemma mats_spec sl : slots_ok sl -> forall n, (n <= num_mats L)%nat ->
  exists a F, for_up 0 n (concat_mat ne L Q V fs gs sl sched) (zeros (rows false) (width false ne), zeros (rows true) (width true ne)) = Some a /\
    (forall b, holds (sel b a) (rows b) (width b ne) (F b)) /\
    (forall b k f e i j, nth_error (ecl b) k = Some f -> (e < ne)%nat -> In (i, j) (offs b) ->
       F b k (col b e i j) = mult sl f k * suml (fun mat => part f mat e i j) (seq 0 n)) /\
    ((0 < n)%nat -> forall b g e i j, In g gs -> tensor_gfield g = b -> (e < ne)%nat -> In (i, j) (offs b) -> F b (slot_of sl (G g)) (col b e i j) = gval g e i j).
Proof.
  intros Hok. induction n as [|n IH]; intros Hn.
  - exists (zeros (rows false) (width false ne), zeros (rows true) (width true ne)), (fun _ _ _ => 0). split; [reflexivity|].
    split; [intros []; apply holds_zeros|]. split; [intros; cbn; ring|lia].
  - destruct IH as (a & F & E & HF & H1 & _); [lia|]. destruct (step_spec sl n a F Hok ltac:(lia) HF) as (a' & F' & E' & HF' & H1' & H2').
    exists a', F'. unfold for_up in *. rewrite seq_S, for_each_app, E. cbn [obind for_each Nat.add]. rewrite E'. split; [reflexivity|]. split; [exact HF'|]. split.
    + intros b k f e i j Hk He Ho. rewrite (H1' b k f e i j Hk He Ho), (H1 b k f e i j Hk He Ho), suml_app, suml_one. ring.
    + intros _ b g e i j. apply H2'.
Qed.

(** division of the energy *)
Lemma divide_spec sl s F : slots_ok sl -> holds s (rows false) ne F -> (In Sie fs -> In Mass fs) ->
  (In Sie fs -> forall e, (e < ne)%nat -> F (slot_of sl (E Mass)) e + 1e-20 <> 0) ->
  exists s' F', divide ne sl s = Some s' /\ holds s' (rows false) ne F' /\
    (forall k e, (k < rows false)%nat -> (e < ne)%nat ->
       F' k e = if In_dec efield_dec Sie fs then (if Nat.eqb k (slot_of sl (E Sie)) then F k e / (F (slot_of sl (E Mass)) e + 1e-20) else F k e) else F k e).
Proof.
  intros Hok HF Hm Hnz. unfold divide. destruct (In_dec efield_dec Sie fs) as [Hin|Hin].
  2:{ rewrite (so_no _ Hok Sie Hin). exists s, F. auto. }
  destruct (so_e _ Hok Sie Hin) as (k & Ek & [Lk _]). destruct (so_e _ Hok Mass (Hm Hin)) as (km & Ekm & [Lm _]). cbn [tensor_field] in Lk, Lm.
  specialize (Hnz Hin). unfold slot_of in *. rewrite Ekm in Hnz. rewrite Ek, Ekm. cbn [obind].
  assert (Hkm : km <> k) by congruence.
  assert (Hkr : (k < rows false)%nat) by (unfold rows; assert (k < length (ecl false))%nat by (apply nth_error_Some; congruence); lia).
  assert (Hmr : (km < rows false)%nat) by (unfold rows; assert (km < length (ecl false))%nat by (apply nth_error_Some; congruence); lia).
  enough (G : forall n, (n <= ne)%nat -> exists s' F', for_up 0 n (fun e s => obind (aget s km e) (fun m => obind (aget s k e) (fun x =>
        if Req_EM_T (m + 1e-20) 0 then None else aset s k e (x / (m + 1e-20))))) s = Some s' /\ holds s' (rows false) ne F' /\
        forall k' e, (k' < rows false)%nat -> (e < ne)%nat -> F' k' e = if Nat.eqb k' k && Nat.ltb e n then F k' e / (F km e + 1e-20) else F k' e).
  { destruct (G ne (le_n _)) as (s' & F' & E' & H1 & H2). exists s', F'. split; [exact E'|]. split; [exact H1|]. intros k' e Hk' He. rewrite H2 by assumption.
    rewrite (proj2 (Nat.ltb_lt e ne) He), andb_true_r. reflexivity. }
  induction n as [|n IH]; intros Hn.
  - exists s, F. split; [reflexivity|]. split; [exact HF|]. intros. rewrite andb_false_r. reflexivity.
  - destruct IH as (s1 & F1 & E1 & H1 & H2); [lia|]. unfold for_up in *. rewrite seq_S, for_each_app, E1. cbn [obind for_each Nat.add].
    rewrite (holds_get _ _ _ _ km n H1 Hmr), (holds_get _ _ _ _ k n H1 Hkr) by lia. cbn [obind]. rewrite (H2 km n), (H2 k n) by (assumption || lia).
    rewrite (proj2 (Nat.eqb_neq km k) Hkm), Nat.eqb_refl, Nat.ltb_irrefl. cbn [andb]. destruct (Req_EM_T _ 0) as [E0|_]; [exfalso; apply (Hnz n); [lia|exact E0]|].
    destruct (holds_set _ _ _ _ k n (F k n / (F km n + 1e-20)) H1 Hkr ltac:(lia)) as (s2 & E2 & H3). rewrite E2. cbn [obind].
    exists s2. eexists. split; [reflexivity|]. split; [exact H3|]. intros k' e Hk' He. cbv beta. rewrite (H2 k' e) by assumption.
    destruct (Nat.eqb_spec k' k) as [->|]; cbn [andb]; [|reflexivity]. destruct (Nat.eqb_spec e n) as [->|Hne].
    + rewrite (proj2 (Nat.ltb_lt n (S n))) by lia. reflexivity.
    + destruct (Nat.ltb_spec e n), (Nat.ltb_spec e (S n)); try reflexivity; lia.
Qed.

(** The sum over the schedule is the sum over the points of the element. *)
Lemma part_total f e i j : suml (fun mat => part f mat e i j) (seq 0 (num_mats L)) = total L Q (fun q => term f q i j) e.
Proof.
  unfold total, points_in, points. rewrite suml_filter, suml_flat. apply suml_ext. intros mat Hm. apply in_seq in Hm. rewrite suml_map. unfold part.
  rewrite (suml_perm _ _ _ (Hsched mat f ltac:(lia))). reflexivity.
Qed.

(** value of row k for field f; only the last of equal fields is written *)
Definition raw (sl : slots ekey) (f : efield) (k e i j : nat) : R := mult sl f k * total L Q (fun q => term f q i j) e.

Lemma elem_fields_spec : (0 < num_mats L)%nat -> (In Sie fs -> In Mass fs) ->
  (In Sie fs -> forall e, (e < ne)%nat -> INR (count_occ efield_dec fs Mass) * total L Q q_mass e + 1e-20 <> 0) ->
  exists o sl, elem_fields ne L Q V fs gs sched = Some o /\ slots_ok sl /\ ef_names o = sl_names sl /\ ef_tnames o = sl_tnames sl /\
    nrow (ef_scalars o) = rows false /\ nrow (ef_tensors o) = rows true /\
    (forall k f e, nth_error (ecl false) k = Some f -> (e < ne)%nat -> aget (ef_scalars o) k e =
       Some (if efield_dec f Sie then raw sl f k e 0 0 / (INR (count_occ efield_dec fs Mass) * total L Q q_mass e + 1e-20) else raw sl f k e 0 0)) /\
    (forall k f e i j, nth_error (ecl true) k = Some f -> (e < ne)%nat -> (i < 3)%nat -> (j < 3)%nat -> aget (ef_tensors o) k (e * 9 + 3 * i + j) = Some (raw sl f k e i j)) /\
    (forall g e, In g gs -> tensor_gfield g = false -> (e < ne)%nat -> aget (ef_scalars o) (slot_of sl (G g)) e = Some (gval g e 0 0)) /\
    (forall g e i j, In g gs -> tensor_gfield g = true -> (e < ne)%nat -> (i < 3)%nat -> (j < 3)%nat -> aget (ef_tensors o) (slot_of sl (G g)) (e * 9 + 3 * i + j) = Some (gval g e i j)).
Proof.
  intros Hn Hm Hnz. destruct elem_slots_spec as (sl & Esl & Hok).
  destruct (mats_spec sl Hok (num_mats L) (le_n _)) as ([s t] & F & Ea & HF & He & Hg).
  pose proof (HF false) as Hs. pose proof (HF true) as Ht. cbn [sel fst snd width] in Hs, Ht.
  assert (Hmass : In Mass fs -> forall e, (e < ne)%nat -> F false (slot_of sl (E Mass)) e = INR (count_occ efield_dec fs Mass) * total L Q q_mass e).
  { intros Hin e Hlt. destruct (so_e _ Hok Mass Hin) as (km & Ekm & [Lm _]). cbn [tensor_field] in Lm. unfold slot_of at 1. rewrite Ekm.
    change e with (col false e 0 0) at 1. rewrite (He false km Mass e 0 0 Lm Hlt (or_introl eq_refl))%nat. rewrite part_total. unfold mult, slot_of. rewrite Ekm, Nat.eqb_refl. reflexivity. }
  destruct (divide_spec sl s (F false) Hok Hs Hm) as (s' & F' & Es & Hs' & HF').
  { intros Hin e Hlt. rewrite (Hmass (Hm Hin) e Hlt). apply (Hnz Hin e Hlt). }
  assert (Hscal : num_elem_scalars fs gs = rows false).
  { unfold num_elem_scalars, rows, ecl, gcl. rewrite !count_filter. f_equal; f_equal; apply filter_ext; intros []; reflexivity. }
  assert (Htens : num_elem_tensors fs gs = rows true).
  { unfold num_elem_tensors, rows, ecl, gcl. rewrite !count_filter. f_equal; f_equal; apply filter_ext; intros []; reflexivity. }
  eexists. exists sl. split.
  { unfold elem_fields. rewrite Esl. cbn [obind]. rewrite Hscal, Htens. cbn [width] in Ea. rewrite Ea. cbn [obind]. rewrite Es. reflexivity. }
  split; [exact Hok|]. cbn [ef_names ef_tnames ef_scalars ef_tensors]. split; [reflexivity|]. split; [reflexivity|]. split; [apply Hs'|]. split; [apply Ht|].
  assert (Hrow : forall b k f, nth_error (ecl b) k = Some f -> (k < rows b)%nat) by (intros b k f Hk; unfold rows; assert (k < length (ecl b))%nat by (apply nth_error_Some; congruence); lia).
  split; [|split; [|split]].
  - intros k f e Hk Hlt. rewrite (holds_get _ _ _ _ k e Hs' (Hrow _ _ _ Hk) Hlt). f_equal. rewrite HF' by (try exact Hlt; apply (Hrow _ _ _ Hk)).
    pose proof (He false k f e 0%nat 0%nat Hk Hlt (or_introl eq_refl)) as Hv. cbn [col] in Hv. rewrite part_total in Hv. fold (raw sl f k e 0 0) in Hv.
    destruct (ecl_in _ _ _ Hk) as [Hf _]. destruct (In_dec efield_dec Sie fs) as [Hin|Hin].
    + rewrite (Hmass (Hm Hin) e Hlt), Hv. destruct (efield_dec f Sie) as [->|Hne].
      * destruct (Nat.eqb_spec k (slot_of sl (E Sie))) as [_|Hk2]; [reflexivity|]. unfold raw, mult. rewrite (proj2 (Nat.eqb_neq _ k)) by congruence. unfold Rdiv. ring.
      * destruct (Nat.eqb_spec k (slot_of sl (E Sie))) as [Hk2|_]; [|reflexivity]. exfalso. destruct (so_e _ Hok Sie Hin) as (k2 & Ek2 & [L2 _]). cbn [tensor_field] in L2.
        unfold slot_of in Hk2. rewrite Ek2 in Hk2. subst k2. congruence.
    + rewrite Hv. destruct (efield_dec f Sie) as [->|]; [contradiction|reflexivity].
  - intros k f e i j Hk Hlt Hi Hj. pose proof (proj2 (in_nine i j) (conj Hi Hj)) as Ho. change (e * 9 + 3 * i + j)%nat with (col true e i j). rewrite (holds_get _ _ _ _ k _ Ht (Hrow _ _ _ Hk) (col_lt true e i j ne Ho Hlt)).
    f_equal. rewrite (He true k f e i j Hk Hlt Ho), part_total. reflexivity.
  - intros g e Hin Hb Hlt. destruct (so_g _ Hok g Hin) as (k & Ek & [Lk _]). rewrite Hb in Ek, Lk.
    assert (Hr : (length (ecl false) + k < rows false)%nat) by (unfold rows; assert (k < length (gcl false))%nat by (apply nth_error_Some; congruence); lia).
    assert (Hsl : slot_of sl (G g) = (length (ecl false) + k)%nat) by (unfold slot_of; rewrite Ek; reflexivity).
    rewrite Hsl, (holds_get _ _ _ _ _ e Hs' Hr Hlt). f_equal. rewrite HF' by assumption. rewrite <- (Hg Hn false g e 0%nat 0%nat Hin Hb Hlt (or_introl eq_refl)). cbn [col]. rewrite Hsl.
    destruct (In_dec efield_dec Sie fs) as [Hin2|]; [|reflexivity]. destruct (Nat.eqb_spec (length (ecl false) + k) (slot_of sl (E Sie))) as [Hk2|]; [|reflexivity].
    exfalso. destruct (so_e _ Hok Sie Hin2) as (k2 & Ek2 & [L2 _]). cbn [tensor_field] in L2. unfold slot_of in Hk2. rewrite Ek2 in Hk2.
    assert (k2 < length (ecl false))%nat by (apply nth_error_Some; congruence). lia.
  - intros g e i j Hin Hb Hlt Hi Hj. pose proof (proj2 (in_nine i j) (conj Hi Hj)) as Ho. change (e * 9 + 3 * i + j)%nat with (col true e i j). destruct (so_g _ Hok g Hin) as (k & Ek & [Lk _]). rewrite Hb in Ek, Lk.
    assert (Hr : (length (ecl true) + k < rows true)%nat) by (unfold rows; assert (k < length (gcl true))%nat by (apply nth_error_Some; congruence); lia).
    assert (Hsl : slot_of sl (G g) = (length (ecl true) + k)%nat) by (unfold slot_of; rewrite Ek; reflexivity).
    rewrite Hsl, (holds_get _ _ _ _ _ _ Ht Hr (col_lt true e i j ne Ho Hlt)). f_equal. rewrite <- (Hg Hn true g e i j Hin Hb Hlt Ho), Hsl. reflexivity.
Qed.
End Elem.
