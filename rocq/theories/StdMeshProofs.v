(* Lemmas for C142. *)
From Coq Require Import Reals List Arith Lia Lra.
From Verif Require Import StdMeshModel StdMeshSpec.
Import ListNotations.

Lemma seq_blocks L n : forall b, flat_map (fun q => seq (b + q * L) L) (seq 0 n) = seq b (L * n).
Proof.
  induction n as [|n IH]; intros b; [rewrite Nat.mul_0_r; reflexivity|]. rewrite seq_S, flat_map_app, IH. cbn [flat_map]. rewrite app_nil_r. replace (L * S n)%nat with (L * n + L)%nat by lia. rewrite seq_app. do 2 f_equal. lia.
Qed.
Lemma map_flat_map {A B C} (f : B -> C) (g : A -> list B) l : map f (flat_map g l) = flat_map (fun a => map f (g a)) l.
Proof. induction l as [|a r IH]; cbn [flat_map]; [reflexivity|]. rewrite map_app, IH. reflexivity. Qed.
Lemma loops_ids {A} a b c (f : nat -> nat -> nat -> nat * A) : (forall i j k, fst (f i j k) = get_id i j k a b) -> map fst (loops a b c f) = seq 0 (a * b * c).
Proof.
  intros Hf. unfold loops. rewrite map_flat_map. rewrite <- (seq_blocks (a * b) c 0). apply flat_map_ext. intros k. rewrite map_flat_map.
  rewrite <- (seq_blocks a b). apply flat_map_ext. intros j. rewrite map_map. rewrite (map_ext _ (fun i => (0 + k * (a * b) + j * a + i)%nat)).
  - rewrite <- (map_id (seq (0 + k * (a * b) + j * a) a)). generalize (0 + k * (a * b) + j * a)%nat. intros s. clear. revert s. assert (H : forall n s z, map (fun i => (s + i)%nat) (seq z n) = map (fun i => i) (seq (s + z) n)). { induction n as [|n IH]; intros s z; cbn [seq map]; [reflexivity|]. rewrite IH. do 2 f_equal. f_equal. lia. } intros s. rewrite H. do 2 f_equal. lia.
  - intros i. rewrite Hf. unfold get_id. lia.
Qed.
Lemma block_nth {A} (g : nat -> list A) L q r : (forall q, length (g q) = L) -> (r < L)%nat -> forall n z, (q < n)%nat -> nth_error (flat_map g (seq z n)) (r + q * L) = nth_error (g (z + q)%nat) r.
Proof.
  intros Hg Hr. induction q as [|q IH]; intros [|n] z Hq; try lia; cbn [seq flat_map].
  - rewrite nth_error_app1 by (rewrite Hg; lia). rewrite !Nat.add_0_r. reflexivity.
  - rewrite nth_error_app2 by (rewrite Hg; lia). rewrite Hg. replace (r + S q * L - L)%nat with (r + q * L)%nat by lia. rewrite IH by lia. do 2 f_equal. lia.
Qed.
Lemma flat_len {A} (g : nat -> list A) L : (forall q, length (g q) = L) -> forall n z, length (flat_map g (seq z n)) = (L * n)%nat.
Proof. intros Hg. induction n as [|n IH]; intros z; cbn [seq flat_map]; [cbn [length]; lia|]. rewrite app_length, Hg, IH. lia. Qed.
Lemma loops_nth {A} a b c (f : nat -> nat -> nat -> A) i j k : (i < a)%nat -> (j < b)%nat -> (k < c)%nat -> nth_error (loops a b c f) (i + j * a + k * a * b) = Some (f i j k).
Proof.
  intros Hi Hj Hk. unfold loops. assert (HL : forall k, length (flat_map (fun j => map (fun i => f i j k) (seq 0 a)) (seq 0 b)) = (a * b)%nat). { intros q. apply flat_len. intros j'. rewrite map_length, seq_length. reflexivity. }
  replace (i + j * a + k * a * b)%nat with ((i + j * a) + k * (a * b))%nat by lia. rewrite (block_nth _ (a * b) k (i + j * a) HL); [|nia|exact Hk]. cbn [Nat.add].
  rewrite (block_nth _ a j i); [|intros j'; rewrite map_length, seq_length; reflexivity|exact Hi|exact Hj]. cbn [Nat.add]. rewrite nth_error_map, (nth_error_nth' (seq 0 a) 0%nat) by (rewrite seq_length; exact Hi). rewrite seq_nth by exact Hi. reflexivity.
Qed.
Lemma loops_In {A} a b c (f : nat -> nat -> nat -> A) v : In v (loops a b c f) -> exists i j k, (i < a)%nat /\ (j < b)%nat /\ (k < c)%nat /\ v = f i j k.
Proof.
  unfold loops. intros H. apply in_flat_map in H. destruct H as (k & Hk & H). apply in_flat_map in H. destruct H as (j & Hj & H). apply in_map_iff in H. destruct H as (i & <- & Hi). apply in_seq in Hi. apply in_seq in Hj. apply in_seq in Hk. exists i, j, k. repeat split; lia.
Qed.
Lemma loops_at {A} a b c (f : nat -> nat -> nat -> A) i j k : (i < a)%nat -> (j < b)%nat -> (k < c)%nat -> In (f i j k) (loops a b c f).
Proof. intros Hi Hj Hk. eapply nth_error_In. apply loops_nth; eassumption. Qed.
Lemma id_bound i j k a b c : (i < a)%nat -> (j < b)%nat -> (k < c)%nat -> (get_id i j k a b < a * b * c)%nat.
Proof. intros Hi Hj Hk. unfold get_id. assert (i + j * a < a * b)%nat by nia. nia. Qed.
Lemma move_ids f l : map fst (move f l) = map fst l. Proof. unfold move. rewrite map_map. reflexivity. Qed.
Lemma move_In f l n c : In (n, c) l -> In (n, f c) (move f l). Proof. intros H. unfold move. apply in_map_iff. exists (n, c). split; [reflexivity|exact H]. Qed.
