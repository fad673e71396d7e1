(** Checked two-dimensional arrays and loops.  Nothing here is specific to Fierro.
    Out-of-range writes and reads of unset entries yield [None] (undefined behaviour). *)
From Coq Require Export List Arith Lia Bool ZArith.
Export ListNotations.

Set Implicit Arguments.

Record arr (A : Type) := mkArr { nrow : nat; ncol : nat; dat : nat -> nat -> option A }.

Definition new_arr {A} (r c : nat) : arr A := mkArr r c (fun _ _ => None).

Definition aset {A} (a : arr A) (r c : nat) (v : A) : option (arr A) :=
  if Nat.ltb r (nrow a) && Nat.ltb c (ncol a)
  then Some (mkArr (nrow a) (ncol a)
               (fun r' c' => if Nat.eqb r' r && Nat.eqb c' c then Some v else dat a r' c'))
  else None.

Definition aget {A} (a : arr A) (r c : nat) : option A :=
  if Nat.ltb r (nrow a) && Nat.ltb c (ncol a) then dat a r c else None.

Definition obind {A B} (x : option A) (f : A -> option B) : option B :=
  match x with Some a => f a | None => None end.

(** [for (x in l) s = body(x, s)], stopping on undefined behaviour. *)
Fixpoint for_each {A S} (l : list A) (body : A -> S -> option S) (s : S) : option S :=
  match l with
  | [] => Some s
  | x :: r => obind (body x s) (for_each r body)
  end.

(** [for (int i = lo; i < lo + n; i++)] *)
Definition for_up {S} (lo n : nat) (body : nat -> S -> option S) (s : S) : option S :=
  for_each (seq lo n) body s.

(** A list of writes performed in order. *)
Definition write A := (nat * nat * A)%type.
Definition do_writes {A} (w : list (write A)) (a : arr A) : option (arr A) :=
  for_each w (fun '(r, c, v) s => aset s r c v) a.

Lemma for_each_app {A S} (l1 l2 : list A) (body : A -> S -> option S) s :
  for_each (l1 ++ l2) body s = obind (for_each l1 body s) (for_each l2 body).
Proof.
  revert s. induction l1 as [|x l IH]; intros s; [reflexivity|].
  cbn. destruct (body x s) as [s'|]; cbn; [apply IH|reflexivity].
Qed.

Lemma for_each_ext {A S} (l : list A) (b1 b2 : A -> S -> option S) s :
  (forall x s, In x l -> b1 x s = b2 x s) -> for_each l b1 s = for_each l b2 s.
Proof.
  revert s. induction l as [|x l IH]; intros s H; [reflexivity|]. cbn.
  rewrite (H x s) by (left; reflexivity). destruct (b2 x s) as [s'|]; [|reflexivity].
  cbn. apply IH. intros; apply H; right; assumption.
Qed.

(** Loops whose body performs writes perform the concatenation of the writes. *)
Lemma for_each_writes {A X} (l : list X) (body : X -> arr A -> option (arr A)) (W : X -> list (write A)) a :
  (forall x a, In x l -> body x a = do_writes (W x) a) ->
  for_each l body a = do_writes (flat_map W l) a.
Proof.
  revert a. induction l as [|x l IH]; intros a H; [reflexivity|]. cbn [for_each flat_map].
  unfold do_writes at 1. rewrite for_each_app. rewrite (H x a) by (left; reflexivity).
  fold (do_writes (W x) a). destruct (do_writes (W x) a) as [a'|]; [|reflexivity].
  cbn. apply IH. intros; apply H; right; assumption.
Qed.

(** The same for a state carrying a counter incremented by every write. *)
Lemma for_each_writes_cnt {A X} (l : list X) (body : X -> arr A * nat -> option (arr A * nat))
    (W : X -> nat -> list (write A)) (len : nat) a n :
  (forall x a n, In x l -> body x (a, n) = option_map (fun a' => (a', n + len)) (do_writes (W x n) a)) ->
  for_each l body (a, n) =
  option_map (fun a' => (a', n + length l * len))
    (do_writes (concat (map (fun '(i, x) => W x (n + i * len)) (combine (seq 0 (length l)) l))) a).
Proof.
  revert a n. induction l as [|x l IH]; intros a n H.
  - cbn. now rewrite Nat.add_0_r.
  - cbn [for_each length seq combine map concat]. rewrite Nat.mul_0_l, Nat.add_0_r.
    unfold do_writes at 1. rewrite for_each_app. fold (do_writes (W x n) a).
    rewrite (H x a n) by (left; reflexivity).
    destruct (do_writes (W x n) a) as [a'|]; [|reflexivity].
    cbn [option_map obind]. rewrite IH by (intros; apply H; right; assumption).
    replace (combine (seq 1 (length l)) l) with (map (fun '(i, y) => (S i, y)) (combine (seq 0 (length l)) l)).
    + rewrite map_map. rewrite (map_ext_in _ (fun x0 => (let '(i, x1) := (let '(i, y) := x0 in (S i, y)) in W x1 (n + i * len)))).
      * unfold do_writes.
        match goal with |- option_map _ ?x = option_map _ ?y => change y with x; destruct x end; [|reflexivity].
        cbn. f_equal. f_equal. lia.
      * intros [i y] _. f_equal. lia.
    + clear. rewrite <- seq_shift. generalize (seq 0 (length l)). induction l as [|y l IH]; intros [|i s]; try reflexivity.
      cbn. f_equal. apply IH.
Qed.

Definition natpair_dec (x y : nat * nat) : {x = y} + {x <> y}.
Proof. decide equality; apply Nat.eq_dec. Defined.

Definition in_range {A} (a : arr A) (w : list (write A)) : Prop :=
  forall r c v, In (r, c, v) w -> r < nrow a /\ c < ncol a.

Definition functional {A} (w : list (write A)) : Prop :=
  forall r c v v', In (r, c, v) w -> In (r, c, v') w -> v = v'.

Lemma do_writes_some {A} (w : list (write A)) : forall a, in_range a w ->
  exists a', do_writes w a = Some a' /\ nrow a' = nrow a /\ ncol a' = ncol a /\
    (forall r c, (forall v, ~ In (r, c, v) w) -> dat a' r c = dat a r c) /\
    (functional w -> forall r c v, In (r, c, v) w -> dat a' r c = Some v).
Proof.
  induction w as [|[[r c] v] w IH]; intros a H.
  - exists a. repeat split; auto. intros _ ? ? ? [].
  - unfold do_writes; cbn [for_each]. unfold aset.
    destruct (H r c v (or_introl eq_refl)) as [Hr Hc].
    rewrite (proj2 (Nat.ltb_lt _ _) Hr), (proj2 (Nat.ltb_lt _ _) Hc). cbn [andb obind].
    set (a1 := mkArr _ _ _).
    destruct (IH a1) as (a' & E & H1 & H2 & H3 & H4).
    { intros r' c' v' Hin. apply (H r' c' v'); right; assumption. }
    exists a'. split; [exact E|]. split; [exact H1|]. split; [exact H2|]. split.
    + intros r' c' Hn. rewrite H3.
      * cbn. destruct (Nat.eqb_spec r' r) as [->|]; [|reflexivity].
        destruct (Nat.eqb_spec c' c) as [->|]; [|reflexivity].
        exfalso; apply (Hn v); left; reflexivity.
      * intros v' Hv. apply (Hn v'); right; assumption.
    + intros F r' c' v' Hin.
      assert (F' : functional w).
      { intros ? ? ? ? A1 A2. eapply F; right; eassumption. }
      destruct (in_dec natpair_dec (r', c')
                       (map (fun '(r0, c0, _) => (r0, c0)) w)) as [Hi|Hi].
      * apply in_map_iff in Hi as [[[r0 c0] v0] [Heq Hin0]]. injection Heq as -> ->.
        assert (v' = v0) by (eapply F; [exact Hin|right; exact Hin0]). subst v0.
        now apply H4.
      * destruct Hin as [Heq|Hin].
        -- injection Heq as <- <- <-. rewrite H3.
           ++ cbn. now rewrite !Nat.eqb_refl.
           ++ intros v0 Hv. apply Hi. apply in_map_iff. exists (r, c, v0). split; [reflexivity|assumption].
        -- exfalso. apply Hi. apply in_map_iff. exists (r', c', v'). split; [reflexivity|assumption].
Qed.

Lemma in_flat_map_seq {B} (f : nat -> list B) lo n x :
  In x (flat_map f (seq lo n)) <-> exists i, lo <= i < lo + n /\ In x (f i).
Proof.
  rewrite in_flat_map. split; intros [i [H1 H2]]; exists i; split; auto; apply in_seq; assumption.
Qed.
