(** Proofs about the string helpers. *)
From Verif Require Import StrModel StrSpec.
Local Open Scope nat_scope.

Lemma starts_with_iff p s : starts_with p s = true <-> exists b, s = p ++ b.
Proof.
  revert s. induction p as [|a p IH]; intros s; cbn; [split; eauto|]. destruct s as [|c s]; cbn.
  - split; [discriminate|intros (b & [=])].
  - rewrite andb_true_iff, IH, Ascii.eqb_eq. split; [intros (-> & b & ->); eauto|intros (b & [= -> ->]); eauto].
Qed.

Lemma app_len_inv {A} (a b c e : list A) : a ++ b = c ++ e -> length a <= length c -> exists k, c = a ++ k /\ b = k ++ e.
Proof.
  revert c. induction a as [|x a IH]; intros c H L; [exists c; cbn in *; auto|].
  destruct c as [|y c]; cbn in L; [lia|]. injection H as -> H. destruct (IH c H) as (k & -> & ->); [lia|]. exists k. auto.
Qed.

Lemma find_at_some d s i e : find_at d s i = Some e ->
  exists a b, s = a ++ d ++ b /\ e = i + length a /\ forall a' b', s = a' ++ d ++ b' -> length a <= length a'.
Proof.
  revert i. induction s as [|c s IH]; intros i; cbn.
  - destruct (starts_with d []) eqn:E; [|discriminate]. intros [= <-]. apply starts_with_iff in E as (b & E).
    exists [], b. cbn. repeat split; auto; lia.
  - destruct (starts_with d (c :: s)) eqn:E.
    + intros [= <-]. apply starts_with_iff in E as (b & E). exists [], b. cbn. repeat split; auto; lia.
    + intros H. apply IH in H as (a & b & -> & -> & Hm). exists (c :: a), b. split; [reflexivity|]. split; [cbn; lia|].
      intros [|c' a'] b' H'.
      * exfalso. assert (T : starts_with d (c :: a ++ d ++ b) = true) by (apply starts_with_iff; exists b'; exact H'). congruence.
      * injection H' as -> H'. apply Hm in H'. cbn. lia.
Qed.

Lemma find_at_none d s i : find_at d s i = None <-> ~ occurs d s.
Proof.
  revert i. induction s as [|c s IH]; intros i; cbn.
  - destruct (starts_with d []) eqn:E.
    + apply starts_with_iff in E as (b & E). split; [discriminate|]. intros H. exfalso. apply H. exists [], b. exact E.
    + split; [|reflexivity]. intros _ (a & b & H). symmetry in H. apply app_eq_nil in H as [-> H]. apply app_eq_nil in H as [-> ->].
      cbn in E. discriminate.
  - destruct (starts_with d (c :: s)) eqn:E.
    + apply starts_with_iff in E as (b & E). split; [discriminate|]. intros H. exfalso. apply H. exists [], b. exact E.
    + rewrite IH. split; intros H (a & b & Hs); apply H.
      * destruct a as [|c' a]; [|injection Hs as -> ->; exists a, b; reflexivity].
        exfalso. assert (T : starts_with d (c :: s) = true) by (apply starts_with_iff; exists b; exact Hs). congruence.
      * exists (c :: a), b. rewrite Hs. reflexivity.
Qed.

Lemma skipn_app_len {A} (a b : list A) : skipn (length a) (a ++ b) = b.
Proof. induction a; cbn; auto. Qed.

Lemma firstn_app_len {A} (a b : list A) : firstn (length a) (a ++ b) = a.
Proof. induction a; cbn; congruence. Qed.

Lemma skipn_plus {A} i j (s : list A) : skipn (i + j) s = skipn j (skipn i s).
Proof. revert s. induction i; intros [|x s]; cbn; auto. now destruct j. Qed.

Lemma split_loop_pieces fuel s d : d <> [] -> forall pos res, pos <= length s -> length s - pos < fuel ->
  exists l, split_loop fuel s d pos res = Some (res ++ l) /\ pieces d (skipn pos s) l.
Proof.
  intros Hd. induction fuel as [|f IH]; intros pos res Hp Hf; [lia|]. cbn [split_loop]. unfold find, substr, substr_end.
  apply Nat.leb_le in Hp as Hpb. rewrite Hpb.
  destruct (find_at d (skipn pos s) pos) as [e|] eqn:E.
  - apply find_at_some in E as (a & b & Ha & -> & Hm).
    assert (Ls : length (skipn pos s) = length s - pos) by apply skipn_length.
    assert (Ld : 0 < length d) by (destruct d; [congruence|cbn; lia]).
    rewrite Ha in Ls. rewrite !app_length in Ls.
    destruct (IH (pos + length a + length d) (res ++ [firstn (pos + length a - pos) (skipn pos s)])) as (l & Hl & Pl); [lia|lia|].
    exists (a :: l). split.
    { etransitivity; [exact Hl|]. replace (pos + length a - pos) with (length a) by lia.
      rewrite Ha at 1. rewrite firstn_app_len, <- app_assoc. reflexivity. }
    rewrite Ha. rewrite <- Nat.add_assoc, skipn_plus, Ha, app_assoc, <- app_length, skipn_app_len in Pl.
    apply pieces_cut; [|exact Pl]. rewrite Ha in Hm. exact Hm.
  - apply find_at_none in E. exists [skipn pos s]. split; [reflexivity|]. now apply pieces_last.
Qed.

Lemma pieces_det d s l l' : pieces d s l -> pieces d s l' -> l = l'.
Proof.
  intros H. revert l'. induction H as [s H|a b l Hm H IH]; intros l' H'.
  - inversion H'; subst; [reflexivity|]. exfalso. apply H. now exists a, b.
  - inversion H'; subst; [exfalso; match goal with X : ~ occurs _ _ |- _ => apply X end; now exists a, b|].
    match goal with X : ?u ++ d ++ ?w = a ++ d ++ b |- _ => rename X into E; rename u into a'; rename w into b' end.
    assert (La : length a = length a').
    { apply Nat.le_antisymm; [apply (Hm a' b'); auto|]. match goal with X : forall _ _, a' ++ d ++ b' = _ -> _ |- _ => apply (X a b); auto end. }
    destruct (app_len_inv a' (d ++ b') a (d ++ b) E) as (k & -> & E2); [lia|]. rewrite app_length in La.
    destruct k; [|cbn in La; lia]. cbn in E2. apply app_inv_head in E2. subst b'. rewrite app_nil_r. f_equal. now apply IH.
Qed.

Lemma pieces_join d s l : pieces d s l -> l <> [] /\ join d l = s.
Proof.
  intros H. induction H as [s H|a b l Hm H [Hl IH]]; [split; [discriminate|reflexivity]|]. split; [discriminate|].
  destruct l as [|x l]; [congruence|]. change (join d (a :: x :: l)) with (a ++ d ++ join d (x :: l)). now rewrite IH.
Qed.

Lemma pieces_clean d s l : d <> [] -> pieces d s l -> Forall (fun p => ~ occurs d p) l.
Proof.
  intros Hd H. induction H as [s H|a b l Hm H IH]; constructor; auto.
  intros (u & w & E). specialize (Hm u (w ++ d ++ b)). rewrite E, <- !app_assoc in Hm. specialize (Hm eq_refl).
  rewrite !app_length in Hm. destruct d; [congruence|cbn in Hm; lia].
Qed.

Lemma split_pieces s d : d <> [] -> exists l, split s d = Some l /\ pieces d s l.
Proof.
  intros Hd. destruct (split_loop_pieces (S (length s)) s d Hd 0 []) as (l & Hl & Pl); [lia|lia|]. now exists l.
Qed.

Lemma split_fuel_enough s d fuel : d <> [] -> length s < fuel -> split_fuel fuel s d = split s d.
Proof.
  intros Hd Hf. destruct (split_pieces s d Hd) as (l & -> & P).
  destruct (split_loop_pieces fuel s d Hd 0 []) as (l' & Hl & Pl); [lia|lia|]. unfold split_fuel. rewrite Hl. cbn in *.
  now rewrite (pieces_det _ _ _ _ P Pl).
Qed.

Lemma split_hangs s fuel : split_fuel fuel s [] = None.
Proof.
  unfold split_fuel. assert (G : forall pos res, pos <= length s -> split_loop fuel s [] pos res = None); [|apply G; lia].
  induction fuel as [|f IH]; intros pos res Hp; [reflexivity|]. cbn. unfold find, substr. assert (Hb := Hp). apply Nat.leb_le in Hb as ->.
  assert (E : find_at [] (skipn pos s) pos = Some pos) by (destruct (skipn pos s); reflexivity). rewrite E.
  apply IH. cbn [length]. now rewrite Nat.add_0_r.
Qed.

(** from the pieces to the string and back *)
Lemma pieces_of_join d l : d <> [] -> (forall a x y b, l = a ++ x :: y :: b -> first_occurrence d x) ->
  (forall x, l <> [] -> x = last l [] -> ~ occurs d x) -> l <> [] -> pieces d (join d l) l.
Proof.
  intros Hd. induction l as [|x l IH]; intros Hf Hl Hn; [congruence|]. destruct l as [|y l].
  - cbn. apply pieces_last. now apply Hl.
  - change (join d (x :: y :: l)) with (x ++ d ++ join d (y :: l)). apply pieces_cut.
    + intros u w E. destruct (le_lt_dec (length x) (length u)) as [|L]; [assumption|].
      assert (F := Hf [] x y l eq_refl).
      assert (E' : u ++ (d ++ w) = x ++ (d ++ join d (y :: l))) by auto.
      destruct (app_len_inv _ _ _ _ E') as (k & Hk & Ek); [lia|].
      assert (Lk : length k > 0) by (rewrite Hk, app_length in L; lia).
      (* d ++ w = k ++ d ++ rest: so d = prefix of k ++ d *)
      assert (E2 : exists v, k ++ d = d ++ v).
      { rewrite app_assoc in Ek. destruct (app_len_inv d w (k ++ d) (join d (y :: l))) as (v & Hv & _); [exact Ek|rewrite app_length; lia|now exists v]. }
      destruct E2 as (v & Ev). assert (Bv : v = []). { apply (F u v). rewrite Hk, <- app_assoc, Ev. reflexivity. }
      subst v. apply (f_equal (@length ascii)) in Ev. rewrite !app_length in Ev. cbn in Ev. lia.
    + apply IH; [|intros; now apply Hl|discriminate].
      intros a u w b E. apply (Hf (x :: a) u w b). now rewrite E.
Qed.

Lemma single_first c p : ~ In c p -> first_occurrence [c] p.
Proof.
  intros H a b E. destruct b as [|e b]; [reflexivity|]. exfalso. apply H.
  destruct (le_lt_dec (length p) (length a)) as [L|L].
  - apply (f_equal (@length ascii)) in E. rewrite !app_length in E. cbn in E. lia.
  - assert (E' : a ++ (c :: e :: b) = p ++ [c]) by (rewrite E; reflexivity).
    destruct (app_len_inv _ _ _ _ E') as (k & Hk & Ek); [lia|]. rewrite Hk. apply in_or_app. right.
    destruct k; [rewrite Hk, app_nil_r in L; lia|]. injection Ek as <- _. now left.
Qed.

Lemma split_join d l : d <> [] -> l <> [] -> (forall a x y b, l = a ++ x :: y :: b -> first_occurrence d x) ->
  ~ occurs d (last l []) -> split (join d l) d = Some l.
Proof.
  intros Hd Hl Hf Hn. destruct (split_pieces (join d l) d Hd) as (l' & -> & P). f_equal.
  apply (pieces_det _ _ _ _ P). apply pieces_of_join; auto. intros x _ ->. exact Hn.
Qed.

Lemma occurs_single c s : occurs [c] s <-> In c s.
Proof.
  split.
  - intros (a & b & ->). apply in_or_app. right. now left.
  - intros H. apply in_split in H as (a & b & ->). now exists a, b.
Qed.

Lemma split_join_char c l : l <> [] -> Forall (fun p => ~ In c p) l -> split (join [c] l) [c] = Some l.
Proof.
  intros Hl Hf. rewrite Forall_forall in Hf. apply split_join; auto; [discriminate| |].
  - intros a x y b ->. apply single_first, Hf, in_or_app. right. now left.
  - rewrite occurs_single. apply Hf. destruct (exists_last Hl) as (l' & x & ->). rewrite last_last. apply in_or_app. right. now left.
Qed.

Lemma array_values c l o e : l <> [] -> Forall (fun p => ~ In c p) l ->
  exact_array_values (o :: join [c] l ++ [e]) [c] = Some l.
Proof.
  intros Hl Hf. cbn. destruct (join [c] l ++ [e]) eqn:E; [apply app_eq_nil in E as [_ [=]]|]. rewrite <- E, removelast_last.
  now apply split_join_char.
Qed.

Lemma array_values_defined s d : d <> [] -> (exists l, exact_array_values s d = Some l) <-> 2 <= length s.
Proof.
  intros Hd. destruct s as [|a [|b s]]; cbn; [split; [intros (l & [=])|lia]|split; [intros (l & [=])|lia]|].
  split; [lia|]. intros _. destruct (split_pieces (match s with [] => [] | _ :: _ => b :: removelast s end) d Hd) as (l & H & _). exists l. exact H.
Qed.

(** trimming *)
Lemma first_not_blank_spec s i :
  (first_not_blank s i = None /\ blanks s) \/
  (exists a c t, s = a ++ c :: t /\ blanks a /\ c <> SP /\ first_not_blank s i = Some (i + length a)).
Proof.
  revert i. induction s as [|c s IH]; intros i; [left; split; [reflexivity|constructor]|]. cbn.
  destruct (Ascii.eqb_spec c SP) as [->|Hc].
  - destruct (IH (S i)) as [(E & B)|(a & c & t & -> & B & Hc & E)].
    + left. split; [exact E|constructor; auto].
    + right. exists (SP :: a), c, t. rewrite E. repeat split; auto; [constructor; auto|f_equal; cbn; lia].
  - right. exists [], c, s. rewrite Nat.add_0_r. repeat split; auto. constructor.
Qed.

Lemma ltrim_spec s : exists a t, ltrim s = Some t /\ s = a ++ t /\ blanks a /\ forall c u, t = c :: u -> c <> SP.
Proof.
  unfold ltrim. destruct (first_not_blank_spec s 0) as [(E & B)|(a & c & t & -> & B & Hc & E)]; rewrite E.
  - exists s, []. rewrite app_nil_r. repeat split; auto. discriminate.
  - exists a, (c :: t). cbn. unfold substr_end. rewrite app_length.
    replace (length a <=? length a + length (c :: t)) with true by (symmetry; apply Nat.leb_le; lia).
    rewrite skipn_app_len. repeat split; auto. intros c' u [= -> ->]. exact Hc.
Qed.

Lemma rtrim_spec s : exists b t, rtrim s = Some t /\ s = t ++ b /\ blanks b /\ forall c u, t = u ++ [c] -> c <> SP.
Proof.
  unfold rtrim, last_not_blank. destruct (first_not_blank_spec (rev s) 0) as [(E & B)|(a & c & t & Hs & B & Hc & E)]; rewrite E.
  - exists s, []. repeat split; auto.
    + unfold blanks in *. rewrite Forall_forall in *. intros x Hx. apply B. now rewrite <- in_rev.
    + intros c u H. symmetry in H. apply app_eq_nil in H as [_ [=]].
  - assert (Hs' : s = rev t ++ [c] ++ rev a).
    { rewrite <- (rev_involutive s), Hs. rewrite rev_app_distr. cbn. now rewrite <- app_assoc. }
    exists (rev a), (rev t ++ [c]). cbn [Nat.add]. unfold substr. rewrite skipn_O.
    replace (0 <=? length s) with true by reflexivity.
    replace (length s - 1 - length a + 1) with (length (rev t ++ [c])).
    2:{ rewrite Hs', !app_length, !rev_length. cbn. lia. }
    rewrite Hs', app_assoc, firstn_app_len. repeat split; auto.
    + unfold blanks in *. rewrite Forall_forall in *. intros x Hx. apply B. now rewrite <- in_rev in Hx.
    + intros c' u H. apply app_inj_tail in H as [_ <-]. exact Hc.
Qed.

Lemma trim_spec s : exists a t b, trim s = Some t /\ s = a ++ t ++ b /\ blanks a /\ blanks b /\ no_blank_ends t.
Proof.
  unfold trim. destruct (ltrim_spec s) as (a & t & -> & -> & B & Hc). destruct (rtrim_spec t) as (b & u & -> & -> & B' & Hu).
  exists a, u, b. repeat split; auto; subst u.
  - now apply (Hc c (t ++ b)).
  - destruct (exists_last (l := c :: t)) as (l' & x & E); [discriminate|]. rewrite E, last_last. now apply (Hu x l').
Qed.

Lemma blanks_head a c t u : blanks a -> c <> SP -> a ++ c :: t = u -> forall a' c' t', blanks a' -> c' <> SP -> a' ++ c' :: t' = u -> a = a' /\ c :: t = c' :: t'.
Proof.
  intros Ha Hc <-. induction Ha as [|x a Hx Ha IH]; intros a' c' t' Ha' Hc' E.
  - destruct a' as [|y a']; cbn in E; [now injection E as -> ->|]. injection E as -> _. now inversion Ha'.
  - destruct a' as [|y a']; cbn in E; [injection E as -> _; congruence|]. injection E as -> E. inversion Ha'; subst.
    destruct (IH a' c' t') as [-> ?]; auto.
Qed.

Lemma trim_unique s t a b : s = a ++ t ++ b -> blanks a -> blanks b -> no_blank_ends t -> trim s = Some t.
Proof.
  intros Hs Ha Hb Ht. destruct (trim_spec s) as (a' & t' & b' & -> & Hs' & Ha' & Hb' & Ht'). f_equal.
  rewrite Hs in Hs'. clear Hs s.
  assert (BA : forall x, blanks x -> forall y, blanks y -> blanks (x ++ y)) by (intros; apply Forall_app; auto).
  assert (NB : forall c u v, blanks (u ++ c :: v) -> c = SP).
  { intros c u v H. unfold blanks in H. rewrite Forall_forall in H. apply H. apply in_or_app. right. now left. }
  destruct t as [|c t].
  - destruct t' as [|c' t']; [reflexivity|]. exfalso. destruct (Ht' c' t' eq_refl) as [Hc _]. apply Hc. apply (NB c' a' (t' ++ b')).
    change (c' :: t' ++ b') with ((c' :: t') ++ b'). rewrite <- Hs'. cbn. auto.
  - destruct (Ht c t eq_refl) as [Hc Hl]. destruct t' as [|c' t'].
    + exfalso. apply Hc. apply (NB c a (t ++ b)). change (c :: t ++ b) with ((c :: t) ++ b). rewrite Hs'. cbn. auto.
    + destruct (Ht' c' t' eq_refl) as [Hc' Hl'].
      destruct (blanks_head a c (t ++ b) (a' ++ (c' :: t') ++ b') Ha Hc Hs' a' c' (t' ++ b') Ha' Hc' eq_refl) as [_ E].
      change ((c :: t) ++ b = (c' :: t') ++ b') in E.
      destruct (exists_last (l := c :: t)) as (l & x & El); [discriminate|]. rewrite El in *. rewrite last_last in Hl.
      destruct (exists_last (l := c' :: t')) as (l' & x' & El'); [discriminate|]. rewrite El' in *. rewrite last_last in Hl'.
      apply (f_equal (@rev ascii)) in E. rewrite !rev_app_distr in E. cbn in E.
      assert (R : forall y, blanks y -> blanks (rev y)).
      { intros y H. unfold blanks in *. rewrite Forall_forall in *. intros z Hz. apply H. now rewrite <- in_rev in Hz. }
      destruct (blanks_head (rev b) x (rev l) _ (R b Hb) Hl E (rev b') x' (rev l') (R b' Hb') Hl' eq_refl) as [_ E2].
      injection E2 as -> E2. apply (f_equal (@rev ascii)) in E2. rewrite !rev_involutive in E2. now rewrite E2.
Qed.

Lemma trim_idem s t : trim s = Some t -> trim t = Some t.
Proof.
  intros H. destruct (trim_spec s) as (a & t' & b & H' & _ & _ & _ & Ht). rewrite H in H'. injection H' as <-.
  apply (trim_unique t t [] []); auto; [now rewrite app_nil_r|constructor|constructor].
Qed.

(** [x, y, z] in brackets *)
Lemma repl_app a b s t : repl a b (s ++ t) = repl a b s ++ repl a b t.
Proof. apply map_app. Qed.

Lemma repl_id a b s : ~ In a s -> repl a b s = s.
Proof.
  induction s as [|c s IH]; intros H; [reflexivity|]. cbn. destruct (Ascii.eqb_spec c a) as [->|]; [exfalso; apply H; now left|].
  f_equal. apply IH. intros X. apply H. now right.
Qed.

Lemma in_join x d l : In x (join d l) -> In x d \/ exists p, In p l /\ In x p.
Proof.
  induction l as [|p l IH]; [intros []|]. destruct l as [|q l]; [cbn; intros H; right; exists p; auto|].
  change (join d (p :: q :: l)) with (p ++ d ++ join d (q :: l)). intros H. apply in_app_or in H as [H|H]; [right; exists p; split; [now left|auto]|].
  apply in_app_or in H as [H|H]; [auto|]. destruct (IH H) as [|(r & Hr & Hx)]; auto. right. exists r. split; [now right|auto].
Qed.

Lemma list_words_brackets p1 mid pn : Forall (fun p => Forall (fun c => c <> ","%char /\ c <> "["%char /\ c <> "]"%char) p) (p1 :: mid ++ [pn]) ->
  list_words ("["%char :: join [","%char] (p1 :: mid ++ [pn]) ++ ["]"%char]) = Some ((SP :: p1) :: mid ++ [pn ++ [SP]]).
Proof.
  intros H. unfold list_words. rewrite Forall_forall in H.
  assert (N : forall c, (c = "["%char \/ c = "]"%char) -> ~ In c (join [","%char] (p1 :: mid ++ [pn]))).
  { intros c Hc X. apply in_join in X as [[<-|[]]|(p & Hp & X)]; [destruct Hc; discriminate|].
    specialize (H p Hp). rewrite Forall_forall in H. specialize (H c X). destruct Hc; subst; tauto. }
  set (J0 := join [","%char] (p1 :: mid ++ [pn])) in *.
  assert (R1 : repl "["%char SP ("["%char :: J0 ++ ["]"%char]) = SP :: J0 ++ ["]"%char]).
  { transitivity (SP :: repl "["%char SP (J0 ++ ["]"%char])); [reflexivity|]. rewrite repl_app, (repl_id "["%char SP J0) by (apply N; auto). reflexivity. }
  assert (R2 : repl "]"%char SP (SP :: J0 ++ ["]"%char]) = [SP] ++ J0 ++ [SP]).
  { transitivity (SP :: repl "]"%char SP (J0 ++ ["]"%char])); [reflexivity|]. rewrite repl_app, (repl_id "]"%char SP J0) by (apply N; auto). reflexivity. }
  rewrite R1, R2. unfold J0. clear R1 R2 N J0.
  assert (J : [SP] ++ join [","%char] (p1 :: mid ++ [pn]) ++ [SP] = join [","%char] ((SP :: p1) :: mid ++ [pn ++ [SP]])).
  { destruct (mid ++ [pn]) as [|q r] eqn:E; [apply app_eq_nil in E as [_ [=]]|].
    assert (JT : forall m x, join [","%char] (m ++ [x ++ [SP]]) = join [","%char] (m ++ [x]) ++ [SP]).
    { induction m as [|y m IH]; intros x; [reflexivity|]. cbn [app]. destruct (m ++ [x ++ [SP]]) as [|u w] eqn:E1; [apply app_eq_nil in E1 as [_ [=]]|].
      destruct (m ++ [x]) as [|u' w'] eqn:E2; [apply app_eq_nil in E2 as [_ [=]]|]. 
      change (join [","%char] (y :: u :: w)) with (y ++ [","%char] ++ join [","%char] (u :: w)).
      change (join [","%char] (y :: u' :: w')) with (y ++ [","%char] ++ join [","%char] (u' :: w')).
      rewrite <- E1, <- E2, IH, <- !app_assoc. reflexivity. }
    change ((SP :: p1) :: mid ++ [pn ++ [SP]]) with (((SP :: p1) :: mid) ++ [pn ++ [SP]]). rewrite JT. 
    change (((SP :: p1) :: mid) ++ [pn]) with ((SP :: p1) :: mid ++ [pn]). rewrite E. reflexivity. }
  rewrite J. apply split_join_char; [discriminate|]. rewrite Forall_forall. intros p Hp.
  assert (G : forall q, In q (p1 :: mid ++ [pn]) -> ~ In ","%char q).
  { intros q Hq X. specialize (H q Hq). rewrite Forall_forall in H. specialize (H _ X). tauto. }
  destruct Hp as [<-|Hp]; [intros [X|X]; [discriminate|now apply (G p1 (or_introl eq_refl))]|].
  apply in_app_or in Hp as [Hp|[<-|[]]]; [apply G; right; apply in_or_app; auto|].
  intros X. apply in_app_or in X as [X|[X|[]]]; [|discriminate]. revert X. apply G. right. apply in_or_app. right. now left.
Qed.
