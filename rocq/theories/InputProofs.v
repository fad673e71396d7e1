(* Lemmas for the input readers. *)
From Coq Require Import List Ascii String Arith Bool ZArith Lia Permutation Sorted.
From Verif Require Import YamlModel YamlSpec YamlProofs YamlLaws InputModel InputSpec.
Import ListNotations.
Local Open Scope nat_scope.

Lemma obnd_done {A B} (x : out A) (f : A -> out B) b : obnd x f = Done b -> exists a, x = Done a /\ f a = Done b.
Proof. destruct x; cbn; intros H; try discriminate. eauto. Qed.

Lemma omap_done {A B} (x : out A) (f : A -> B) b : omap x f = Done b -> exists a, x = Done a /\ b = f a.
Proof. intros H. apply obnd_done in H. destruct H as (a & E & X). inversion X. eauto. Qed.

Lemma as_num_done {D} (conv : str -> D) n x : as_num conv n = Done x -> x = conv (as_string n) /\ ~ blank_text (as_string n).
Proof.
  unfold as_num. destruct (forallb is_space (as_string n)) eqn:E; [discriminate|]. intros H. inversion H; subst. split; [reflexivity|].
  intros B. rewrite (proj2 (forallb_forall _ _)) in E; [discriminate|]. intros c C. exact (proj1 (Forall_forall _ _) B c C).
Qed.

Lemma as_num_ok {D} (conv : str -> D) n : ~ blank_text (as_string n) -> as_num conv n = Done (conv (as_string n)).
Proof.
  intros H. unfold as_num. destruct (forallb is_space (as_string n)) eqn:E; [|reflexivity]. exfalso. apply H. apply Forall_forall.
  rewrite forallb_forall in E. exact E.
Qed.

Lemma as_num_blank {D} (conv : str -> D) n : blank_text (as_string n) -> as_num conv n = Unset.
Proof.
  intros H. unfold as_num. rewrite (proj2 (forallb_forall _ _)); [reflexivity|]. intros c C. exact (proj1 (Forall_forall _ _) H c C).
Qed.

Lemma mem_in w l : mem w l = true <-> In w l.
Proof.
  unfold mem. rewrite existsb_exists. split.
  - intros (x & I & E). apply str_eqb_eq in E. subst. exact I.
  - intros I. exists w. split; [exact I|apply str_eqb_refl].
Qed.

Lemma assoc_in {A} (m : list (str * A)) k x : assoc m k = Some x -> In (k, x) m.
Proof.
  induction m as [|[j y] m IH]; cbn [assoc]; [discriminate|]. destruct (str_eqb j k) eqn:E.
  - apply str_eqb_eq in E. intros H. inversion H; subst. left. reflexivity.
  - intros H. right. exact (IH H).
Qed.

Lemma assoc_some {A} (m : list (str * A)) k : In k (map fst m) -> exists x, assoc m k = Some x.
Proof.
  induction m as [|[j y] m IH]; cbn [assoc map fst In]; [contradiction|]. intros [<-|H].
  - rewrite str_eqb_refl. eauto.
  - destruct (str_eqb j k); eauto.
Qed.

Lemma assoc_none {A} (m : list (str * A)) k : ~ In k (map fst m) -> assoc m k = None.
Proof.
  intros N. destruct (assoc m k) as [x|] eqn:E; [|reflexivity]. exfalso. apply N. apply assoc_in in E. exact (in_map fst _ _ E).
Qed.

(* ---------- the words ---------- *)

Definition word_list (n : node) : list str :=
  match n with NMap m => map fst m | NSeq m => map (fun _ => []) m | _ => [] end.

Lemma words_seq m t acc : List.length m < t -> words_loop t (ItSeq m) (ItSeq []) acc = Some (acc ++ map (fun _ => []) m).
Proof.
  revert t acc. induction m as [|e m IH]; intros t acc L; (destruct t as [|t]; [lia|]); cbn [words_loop it_eq List.length Nat.eqb].
  - rewrite app_nil_r. reflexivity.
  - cbn [it_next it_name]. rewrite IH by (cbn in L; lia). rewrite <- app_assoc. reflexivity.
Qed.

Lemma words_map m t acc : List.length m < t -> words_loop t (ItMap m) (ItMap []) acc = Some (acc ++ map fst m).
Proof.
  revert t acc. induction m as [|[k x] m IH]; intros t acc L; (destruct t as [|t]; [lia|]); cbn [words_loop it_eq List.length Nat.eqb].
  - rewrite app_nil_r. reflexivity.
  - cbn [it_next it_name]. rewrite IH by (cbn in L; lia). rewrite <- app_assoc. reflexivity.
Qed.

Lemma words_none t acc : words_loop t ItNone ItNone acc = None.
Proof. revert acc. induction t as [|t IH]; intros acc; [reflexivity|]. cbn. apply IH. Qed.

(* More turns than entries end the loop on a container; nothing ends it on
   another node. *)
Lemma words_runs n : (container n -> forall t, node_size n < t -> words_loop t (it_begin n) (it_end n) [] = Some (word_list n)) /\
  (~ container n -> forall t, words_loop t (it_begin n) (it_end n) [] = None).
Proof.
  split; intros C t.
  - intros L. destruct n; try (destruct C as [C|C]; discriminate); [apply (words_seq m t [])|apply (words_map m t [])]; exact L.
  - destruct n; try apply words_none; destruct C; [right|left]; reflexivity.
Qed.

Lemma container_dec n : container n \/ ~ container n.
Proof. destruct n; unfold container; cbn; intuition discriminate. Qed.

Lemma words_done n : container n -> words n = Done (word_list n).
Proof. intros C. unfold words. rewrite (proj1 (words_runs n) C) by lia. reflexivity. Qed.

Lemma words_hang n : ~ container n -> words n = Hangs.
Proof. intros C. unfold words. rewrite (proj2 (words_runs n) C). reflexivity. Qed.

Lemma words_inv n ws : words n = Done ws -> container n /\ ws = word_list n.
Proof.
  intros H. destruct (container_dec n) as [C|C]; [rewrite words_done in H by exact C; inversion H; auto|rewrite words_hang in H by exact C; discriminate].
Qed.

Lemma validate_inv n req ws : validate_inputs n req = Done ws -> container n /\ ws = word_list n /\ forall r, In r req -> In r ws.
Proof.
  intros H. apply obnd_done in H. destruct H as (u & W & H). apply words_inv in W. destruct W as [C ->].
  destruct (forallb _ req) eqn:F; [|discriminate]. inversion H; subst. split; [exact C|]. split; [reflexivity|].
  intros r R. rewrite forallb_forall in F. apply mem_in. exact (F r R).
Qed.

Lemma validate_ok n req : container n -> (forall r, In r req -> In r (word_list n)) -> validate_inputs n req = Done (word_list n).
Proof.
  intros C R. unfold validate_inputs. rewrite words_done by exact C. cbn [obnd]. rewrite (proj2 (forallb_forall _ _)); [reflexivity|].
  intros r I. apply mem_in. exact (R r I).
Qed.

Lemma validate_missing n req r : container n -> In r req -> ~ In r (word_list n) -> validate_inputs n req = Throws MissingRequired.
Proof.
  intros C R N. unfold validate_inputs. rewrite words_done by exact C. cbn [obnd]. destruct (forallb _ req) eqn:F; [|reflexivity].
  rewrite forallb_forall in F. destruct N. apply mem_in. exact (F r R).
Qed.

Lemma word_gives n k : k <> [] -> (In k (word_list n) <-> gives n k).
Proof.
  intros K. destruct n; cbn; try tauto. unfold gives. cbn [map_of map]. split; [|intros []].
  rewrite in_map_iff. intros (x & E & _). congruence.
Qed.

Lemma nodup_increasing ks : keys_increasing ks -> NoDup ks.
Proof.
  intros K. apply NoDup_nth_error. intros i j L E. destruct (Nat.lt_trichotomy i j) as [O|[O|O]]; [|exact O|]; exfalso.
  - destruct (nth_error ks i) as [a|] eqn:A; [|apply nth_error_None in A; lia]. symmetry in E. pose proof (K i j a a O A E) as X. rewrite str_cmp_refl in X. discriminate.
  - destruct (nth_error ks i) as [a|] eqn:A; [|apply nth_error_None in A; lia]. symmetry in E. pose proof (K j i a a O E A) as X. rewrite str_cmp_refl in X. discriminate.
Qed.

Lemma word_nodup n m : regular n -> n = NMap m -> NoDup (word_list n).
Proof. intros R ->. inversion R; subst. apply nodup_increasing. assumption. Qed.

(* ---------- loops over words ---------- *)

Section Over.
  Context {St T : Type} (step : St -> str -> node -> out St) (get : St -> T) (key : str) (rel : T -> node -> T -> Prop).
  Hypothesis hit : forall s v s', step s key v = Done s' -> rel (get s) v (get s').
  Hypothesis miss : forall s w v s', step s w v = Done s' -> w <> key -> get s' = get s.

  Lemma over_miss sec ws s s' : ~ In key ws -> over_words step sec ws s = Done s' -> get s' = get s.
  Proof.
    revert s. induction ws as [|w ws IH]; intros s N H; cbn [over_words] in H; [inversion H; reflexivity|].
    apply obnd_done in H. destruct H as (s1 & A & B). cbn [In] in N. rewrite (IH s1 ltac:(tauto) B). eapply miss; [exact A|]. intros ->. tauto.
  Qed.

  Lemma over_field sec ws s s' : NoDup ws -> over_words step sec ws s = Done s' ->
    (In key ws -> rel (get s) (get_key sec key) (get s')) /\ (~ In key ws -> get s' = get s).
  Proof.
    intros D H. split; [|intros N; exact (over_miss sec ws s s' N H)]. revert s D H.
    induction ws as [|w ws IH]; intros s D H I; [destruct I|]. cbn [over_words] in H. apply obnd_done in H. destruct H as (s1 & A & B).
    inversion D as [|? ? N D']; subst. destruct I as [->|I].
    - rewrite (over_miss sec ws s1 s' N B). eapply hit. exact A.
    - pose proof (IH s1 D' B I) as R. rewrite (miss _ _ _ _ A) in R; [exact R|]. intros ->. exact (N I).
  Qed.
End Over.

Lemma over_only {St} (step : St -> str -> node -> out St) (allowed : str -> Prop) sec ws s s' :
  (forall s w v s', step s w v = Done s' -> allowed w) -> over_words step sec ws s = Done s' -> forall w, In w ws -> allowed w.
Proof.
  intros A. revert s. induction ws as [|w ws IH]; intros s H x X; [destruct X|]. cbn [over_words] in H. apply obnd_done in H. destruct H as (s1 & B & C).
  destruct X as [->|X]; [eapply A; exact B|eapply IH; eassumption].
Qed.

Lemma over_ok {St} (P : St -> Prop) (step : St -> str -> node -> out St) sec ws s : P s ->
  (forall w, In w ws -> forall s, P s -> exists s', step s w (get_key sec w) = Done s' /\ P s') ->
  exists s', over_words step sec ws s = Done s' /\ P s'.
Proof.
  revert s. induction ws as [|w ws IH]; intros s HP A; [exists s; split; [reflexivity|exact HP]|]. cbn [over_words].
  destruct (A w (or_introl eq_refl) s HP) as (s1 & E & P1). rewrite E. cbn [obnd]. apply IH; [exact P1|]. intros x X. apply A. right. exact X.
Qed.

(* The first word that fails decides. *)
Lemma over_fail {St} (step : St -> str -> node -> out St) e sec ws s :
  (forall w, In w ws -> forall s, (exists s', step s w (get_key sec w) = Done s') \/ step s w (get_key sec w) = Throws e) ->
  (exists w, In w ws /\ forall s, step s w (get_key sec w) = Throws e) ->
  over_words step sec ws s = Throws e.
Proof.
  revert s. induction ws as [|w ws IH]; intros s A (x & X & F); [destruct X|]. cbn [over_words].
  destruct (A w (or_introl eq_refl) s) as [(s1 & E)|E]; rewrite E; cbn [obnd]; [|reflexivity]. apply IH.
  - intros y Y. apply A. right. exact Y.
  - destruct X as [->|X]; [rewrite F in E; discriminate|eauto].
Qed.

Lemma read_inv {St} (step : St -> str -> node -> out St) req sec s s' : read_section step req sec s = Done s' ->
  container sec /\ (forall r, In r req -> In r (word_list sec)) /\ over_words step sec (word_list sec) s = Done s'.
Proof.
  intros H. apply obnd_done in H. destruct H as (ws & V & O). apply validate_inv in V. destruct V as (C & -> & R). auto.
Qed.

Lemma container_cases n : container n -> (exists m, n = NMap m) \/ (exists m, n = NSeq m).
Proof. destruct n; intros [C|C]; try discriminate; eauto. Qed.

(* A section with a required key is a mapping. *)
Lemma needs_map n k : container n -> k <> [] -> In k (word_list n) -> exists m, n = NMap m.
Proof.
  intros C K I. destruct (container_cases n C) as [E|[m E]]; [exact E|]. subst. cbn in I. rewrite in_map_iff in I. destruct I as (x & E & _). congruence.
Qed.

Lemma lit_ne a s : lit (String a s) <> [].
Proof. discriminate. Qed.

Lemma in_lit k l : In k l -> In (lit k) (map lit l).
Proof. apply in_map. Qed.

Ltac find_lit := apply in_lit; cbn [In]; repeat (first [left; reflexivity | right]).

(* Case analysis on the chain of comparisons in [H : step .. = ..]. *)
Ltac key_chain H :=
  match type of H with
  | (if str_eqb ?w (lit ?k) then _ else _) = _ =>
      let E := fresh "E" in destruct (str_eqb w (lit k)) eqn:E; [apply str_eqb_eq in E|key_chain H]
  | _ => idtac
  end.

Lemma pick_done {A B} (m : list (str * A)) v (f : A -> B) y : pick m v f = Done y -> exists x, In (as_string v, x) m /\ y = f x.
Proof. unfold pick. destruct (assoc m (as_string v)) as [x|] eqn:E; [|discriminate]. intros H. inversion H. exists x. split; [apply assoc_in; exact E|reflexivity]. Qed.

(* Takes a result apart. *)
Ltac crack H :=
  cbv beta in H; try discriminate H;
  repeat (match type of H with
  | Done _ = Done _ => fail 1
  | obnd _ _ = Done _ => let A := fresh "A" in apply obnd_done in H; destruct H as (? & A & H)
  | omap _ _ = Done _ => let A := fresh "A" in apply omap_done in H; destruct H as (? & A & H)
  | pick _ _ _ = Done _ => let A := fresh "A" in apply pick_done in H; destruct H as (? & A & H)
  | match ?x with _ => _ end = Done _ => let E := fresh "E" in destruct x eqn:E
  end; try discriminate H; cbv beta in H);
  try (match type of H with Done _ = Done _ => inversion H; clear H end); subst.

Ltac clash := exfalso; match goal with E : lit _ = lit _ |- _ => vm_compute in E; discriminate E | N : ?x <> ?x |- _ => exact (N eq_refl) end.


(* ---------- sections of a regular tree ---------- *)

(* A mapping all of whose words are read. *)
Definition told {A} (conv : str -> A) (old : A) (v : node) (x : A) : Prop := x = conv (as_string v).

Lemma sec_words m : regular (NMap m) -> NoDup (word_list (NMap m)) /\ forall k, In k (word_list (NMap m)) <-> gives (NMap m) k.
Proof. intros R. split; [eapply word_nodup; [exact R|reflexivity]|]. intros k. reflexivity. Qed.

Section Sec.
  Context {St : Type} (step : St -> str -> node -> out St) (sec : node) (s s' : St) (m : list (str * node)).
  Hypothesis M : sec = NMap m.
  Hypothesis R : regular sec.
  Hypothesis O : over_words step sec (word_list sec) s = Done s'.

  Lemma sec_field {A} (get : St -> A) (k : string) (conv : str -> A) :
    (forall s v s', step s (lit k) v = Done s' -> told conv (get s) v (get s')) ->
    (forall s w v s', step s w v = Done s' -> w <> lit k -> get s' = get s) ->
    field sec k conv (get s) (get s').
  Proof.
    intros H1 H2. destruct (over_field step get (lit k) (told conv) H1 H2 sec _ s s' (word_nodup sec m R M) O) as [X Y].
    subst sec. split; [exact X|exact Y].
  Qed.

  Lemma sec_choice {A} (get : St -> A) (k : string) (al : list (str * A)) :
    (forall s v s', step s (lit k) v = Done s' -> In (as_string v, get s') al) ->
    (forall s w v s', step s w v = Done s' -> w <> lit k -> get s' = get s) ->
    choice sec k al (get s) (get s').
  Proof.
    intros H1 H2. destruct (over_field step get (lit k) (fun _ v x => In (as_string v, x) al) H1 H2 sec _ s s' (word_nodup sec m R M) O) as [X Y].
    subst sec. split; [exact X|exact Y].
  Qed.

  Lemma sec_rel {A} (get : St -> A) (k : string) (rel : A -> node -> A -> Prop) :
    (forall s v s', step s (lit k) v = Done s' -> rel (get s) v (get s')) ->
    (forall s w v s', step s w v = Done s' -> w <> lit k -> get s' = get s) ->
    (gives sec (lit k) -> rel (get s) (get_key sec (lit k)) (get s')) /\ (~ gives sec (lit k) -> get s' = get s).
  Proof.
    intros H1 H2. destruct (over_field step get (lit k) rel H1 H2 sec _ s s' (word_nodup sec m R M) O) as [X Y].
    subst sec. split; [exact X|exact Y].
  Qed.

  (* What every accepted word satisfies. *)
  Lemma sec_each (P : str -> node -> Prop) : (forall s w v s', step s w v = Done s' -> P w v) ->
    forall k, gives sec k -> P k (get_key sec k).
  Proof.
    intros H k G. subst sec. change (In k (word_list (NMap m))) in G. revert s O G. generalize (word_list (NMap m)).
    induction l as [|w r IH]; intros s0 Q I; [destruct I|]. cbn [over_words] in Q. apply obnd_done in Q. destruct Q as (s1 & A & B).
    destruct I as [->|I]; [eapply H; exact A|exact (IH s1 B I)].
  Qed.

  (* What holds after every step holds in the end, if there is a step. *)
  Lemma sec_last (P : St -> Prop) k : gives sec k -> (forall s w v s', step s w v = Done s' -> P s') -> P s'.
  Proof.
    intros G H. subst sec. change (In k (word_list (NMap m))) in G. revert s k O G. generalize (word_list (NMap m)).
    induction l as [|w r IH]; intros s0 k Q I; [destruct I|]. cbn [over_words] in Q. apply obnd_done in Q. destruct Q as (s1 & A & B).
    destruct r as [|w' r]; [|eapply IH; [exact B|left; reflexivity]]. inversion B; subst. eapply H. exact A.
  Qed.
End Sec.

(* ---------- integers ---------- *)

Lemma digit_some c : 48 <= nat_of_ascii c <= 57 -> digit c = Some (Z.of_nat (nat_of_ascii c - 48)).
Proof. intros H. unfold digit. rewrite (proj2 (Nat.leb_le 48 _)), (proj2 (Nat.leb_le _ 57)) by lia. reflexivity. Qed.
Lemma digit_none c : nat_of_ascii c < 48 \/ 57 < nat_of_ascii c -> digit c = None.
Proof.
  intros H. unfold digit. destruct (48 <=? nat_of_ascii c) eqn:A; [|reflexivity]. destruct (nat_of_ascii c <=? 57) eqn:B; [|reflexivity].
  apply Nat.leb_le in A, B. lia.
Qed.
Lemma digits_value ds rest acc any : is_digits ds -> no_digit_next rest ->
  digits (ds ++ rest) acc any = ((acc * 10 ^ Z.of_nat (List.length ds) + decimal ds)%Z, match ds with [] => any | _ => true end).
Proof.
  intros H N. revert acc any. induction H as [|c ds C H IH]; intros acc any.
  - cbn [app decimal List.length]. rewrite Z.pow_0_r, Z.mul_1_r, Z.add_0_r. destruct rest as [|c r]; [reflexivity|]. cbn [digits]. rewrite (digit_none c (N c r eq_refl)). reflexivity.
  - cbn [app digits decimal List.length]. rewrite digit_some by exact C. rewrite IH. rewrite Nat2Z.inj_succ, Z.pow_succ_r by lia. f_equal; [ring|]. destruct ds; reflexivity.
Qed.
Lemma blank_space c : blank_char c -> is_space c = true.
Proof.
  unfold blank_char, is_space. cbn [In]. intros H. destruct (Nat.eqb (nat_of_ascii c) 32) eqn:E; [reflexivity|]. cbn [orb]. apply Nat.eqb_neq in E.
  apply andb_true_iff. split; apply Nat.leb_le; lia.
Qed.
Lemma skip_blanks b s : Forall blank_char b -> skip_blank (b ++ s) = skip_blank s.
Proof. induction 1 as [|c b C B IH]; [reflexivity|]. cbn [app skip_blank]. rewrite (blank_space c C). exact IH. Qed.
Lemma digit_space c : 48 <= nat_of_ascii c <= 57 -> is_space c = false.
Proof.
  intros H. unfold is_space. rewrite (proj2 (Nat.eqb_neq _ 32)) by lia. cbn [orb]. apply andb_false_iff. right. apply Nat.leb_gt. lia.
Qed.
Lemma digit_char c d : 48 <= nat_of_ascii c <= 57 -> (nat_of_ascii d < 48 \/ 57 < nat_of_ascii d) -> Ascii.eqb c d = false.
Proof. intros A B. apply Ascii.eqb_neq. intros ->. lia. Qed.
Lemma decimal_nonneg ds : is_digits ds -> (0 <= decimal ds)%Z.
Proof. induction 1 as [|c ds C H IH]; cbn [decimal]; [lia|]. pose proof (Z.pow_nonneg 10 (Z.of_nat (List.length ds)) ltac:(lia)). nia. Qed.

Lemma integers : forall b sign ds rest, Forall blank_char b -> In sign [[]; lit "+"; lit "-"] -> ds <> [] -> is_digits ds -> no_digit_next rest ->
  let v := (if list_eq_dec ascii_dec sign (lit "-") then - decimal ds else decimal ds)%Z in
  to_int (b ++ sign ++ ds ++ rest) = Z.max (-2147483648) (Z.min 2147483647 v) /\
  (- 2 ^ 64 < v < 2 ^ 64 -> to_size (b ++ sign ++ ds ++ rest) = v mod 2 ^ 64)%Z /\
  ~ blank_text (b ++ sign ++ ds ++ rest).
Proof.
  intros b sign ds rest B Sg NE DS NX. cbv zeta.
  assert (TW : two64 = (2 ^ 64)%Z) by reflexivity. pose proof (decimal_nonneg ds DS) as NN.
  assert (NB : ~ blank_text (b ++ sign ++ ds ++ rest)).
  { intros X. unfold blank_text in X. apply Forall_app in X. destruct X as [_ X]. apply Forall_app in X. destruct X as [_ X]. destruct ds as [|c ds]; [contradiction|].
    inversion X; subst. inversion DS; subst. rewrite digit_space in * by assumption. discriminate. }
  split; [|split; [|exact NB]].
  - unfold to_int. rewrite skip_blanks by exact B. destruct ds as [|c ds]; [contradiction|]. inversion DS as [|? ? C DS']; subst.
    destruct Sg as [<-|[<-|[<-|[]]]].
    + cbn [app]. cbn [skip_blank]. rewrite digit_space by exact C. rewrite (digit_char c "-"%char), (digit_char c "+"%char) by (try exact C; cbn; lia).
      change (c :: ds ++ rest) with ((c :: ds) ++ rest). rewrite digits_value by assumption. rewrite Z.mul_0_l, Z.add_0_l.
      destruct (list_eq_dec ascii_dec [] (lit "-")) as [E|_]; [discriminate|]. reflexivity.
    + change (skip_blank (lit "+" ++ (c :: ds) ++ rest)) with ("+"%char :: (c :: ds) ++ rest). cbv iota beta.
      replace (Ascii.eqb "+" "-") with false by reflexivity. replace (Ascii.eqb "+" "+") with true by reflexivity. cbv iota beta.
      rewrite digits_value by assumption. rewrite Z.mul_0_l, Z.add_0_l. destruct (list_eq_dec ascii_dec (lit "+") (lit "-")) as [E|_]; [discriminate|]. reflexivity.
    + change (skip_blank (lit "-" ++ (c :: ds) ++ rest)) with ("-"%char :: (c :: ds) ++ rest). cbv iota beta.
      replace (Ascii.eqb "-" "-") with true by reflexivity. cbv iota beta.
      rewrite digits_value by assumption. rewrite Z.mul_0_l, Z.add_0_l. destruct (list_eq_dec ascii_dec (lit "-") (lit "-")) as [_|E]; [reflexivity|contradiction].
  - intros V. unfold to_size. rewrite skip_blanks by exact B. destruct ds as [|c ds]; [contradiction|]. inversion DS as [|? ? C DS']; subst.
    destruct Sg as [<-|[<-|[<-|[]]]].
    + destruct (list_eq_dec ascii_dec [] (lit "-")) as [E|_]; [discriminate|]. cbn [app]. cbn [skip_blank]. rewrite digit_space by exact C. rewrite (digit_char c "-"%char), (digit_char c "+"%char) by (try exact C; cbn; lia).
      change (c :: ds ++ rest) with ((c :: ds) ++ rest). rewrite digits_value by assumption. rewrite Z.mul_0_l, Z.add_0_l. rewrite TW.
      rewrite (proj2 (Z.leb_gt _ _)) by lia. rewrite Z.mod_small by lia. reflexivity.
    + destruct (list_eq_dec ascii_dec (lit "+") (lit "-")) as [E|_]; [discriminate|]. change (skip_blank (lit "+" ++ (c :: ds) ++ rest)) with ("+"%char :: (c :: ds) ++ rest). cbv iota beta.
      replace (Ascii.eqb "+" "-") with false by reflexivity. replace (Ascii.eqb "+" "+") with true by reflexivity. cbv iota beta.
      rewrite digits_value by assumption. rewrite Z.mul_0_l, Z.add_0_l. rewrite TW. rewrite (proj2 (Z.leb_gt _ _)) by lia. rewrite Z.mod_small by lia. reflexivity.
    + destruct (list_eq_dec ascii_dec (lit "-") (lit "-")) as [_|E]; [|contradiction]. change (skip_blank (lit "-" ++ (c :: ds) ++ rest)) with ("-"%char :: (c :: ds) ++ rest). cbv iota beta.
      replace (Ascii.eqb "-" "-") with true by reflexivity. cbv iota beta.
      rewrite digits_value by assumption. rewrite Z.mul_0_l, Z.add_0_l. rewrite TW. rewrite (proj2 (Z.leb_gt _ _)) by lia. reflexivity.
Qed.
