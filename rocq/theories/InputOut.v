(* What the reader of the output options stores, and when the readers accept. *)
From Coq Require Import List Ascii String Arith Bool ZArith Lia.
From Verif Require Import YamlModel YamlSpec YamlProofs YamlLaws InputModel InputSpec InputProofs InputReaders.
From Verif Require StrModel StrSpec StrProps.
Import ListNotations.
Local Open Scope nat_scope.

Lemma names_done {A} (m : list (str * A)) v is acc l : names m v is acc = Done l ->
  exists new, l = acc ++ new /\ Forall2 (fun i x => In (as_string (get_index v i), x) m) is new.
Proof.
  revert acc. induction is as [|i is IH]; intros acc H; cbn [names] in H.
  - inversion H; subst. exists []. split; [rewrite app_nil_r; reflexivity|constructor].
  - destruct (assoc m (as_string (get_index v i))) as [x|] eqn:E; [|discriminate]. apply IH in H. destruct H as (new & -> & F).
    exists (x :: new). split; [rewrite <- app_assoc; reflexivity|]. constructor; [apply assoc_in; exact E|exact F].
Qed.

Lemma forall2_seq {A} (P : nat -> A -> Prop) b n l : Forall2 P (seq b n) l <-> List.length l = n /\ forall i x, nth_error l i = Some x -> P (b + i) x.
Proof.
  revert b l. induction n as [|n IH]; intros b l; cbn [seq].
  - split; [intros H; inversion H; subst; split; [reflexivity|intros [|i] x; discriminate]|]. intros [L _]. destruct l; [constructor|discriminate].
  - split.
    + intros H. inversion H as [|? y ? l' X Y]; subst. apply IH in Y. destruct Y as [L Y]. split; [cbn; lia|]. intros [|i] x E; cbn in E; [inversion E; subst; rewrite Nat.add_0_r; exact X|].
      replace (b + S i) with (S b + i) by lia. exact (Y i x E).
    + intros [L H]. destruct l as [|y l]; [discriminate|]. constructor; [rewrite <- (Nat.add_0_r b); apply H; reflexivity|]. apply IH. split; [cbn in L; lia|].
      intros i x E. replace (S b + i) with (b + S i) by lia. exact (H (S i) x E).
Qed.

Lemma names_listed {A} (m : list (str * A)) v acc l : names m v (seq 0 (node_size v)) acc = Done l -> exists new, names_of v m new /\ l = acc ++ new.
Proof. intros H. apply names_done in H. destruct H as (new & E & F). exists new. split; [apply (forall2_seq _ 0) in F; exact F|exact E]. Qed.

Lemma names_ok {A} (m : list (str * A)) v is acc : (forall i, In i is -> In (as_string (get_index v i)) (map fst m)) -> exists l, names m v is acc = Done l.
Proof.
  revert acc. induction is as [|i is IH]; intros acc H; cbn [names]; [eauto|].
  destruct (assoc_some m _ (H i (or_introl eq_refl))) as [x ->]. apply IH. intros j J. apply H. right. exact J.
Qed.

Lemma names_bad {A} (m : list (str * A)) v is acc : (exists i, In i is /\ ~ In (as_string (get_index v i)) (map fst m)) -> names m v is acc = Throws UnknownOption.
Proof.
  revert acc. induction is as [|i is IH]; intros acc (j & J & N); [destruct J|]. cbn [names].
  destruct (assoc m (as_string (get_index v i))) as [x|] eqn:E; [|reflexivity]. apply IH. destruct J as [->|J]; [|eauto]. exfalso. apply N. apply assoc_in in E. exact (in_map fst _ _ E).
Qed.

Lemma existsb_sie l : existsb is_sie l = true <-> In MSie l.
Proof. rewrite existsb_exists. split; [intros ([] & I & E); try discriminate; exact I|intros I; exists MSie; auto]. Qed.
Lemma existsb_mass l : existsb is_mass l = true <-> In MMass l.
Proof. rewrite existsb_exists. split; [intros ([] & I & E); try discriminate; exact I|intros I; exists MMass; auto]. Qed.

Lemma add_mass_spec l : (In MSie l /\ ~ In MMass l -> add_mass l = l ++ [MMass]) /\ (~ In MSie l \/ In MMass l -> add_mass l = l).
Proof.
  unfold add_mass. rewrite <- existsb_sie, <- existsb_mass. destruct (existsb is_sie l), (existsb is_mass l); cbn [andb negb]; split; try reflexivity; intuition congruence.
Qed.

Section Out.
Context {D : Type} (dbl : str -> D).

Ltac out_open H := match type of H with out_step _ ?s _ _ = _ => destruct s end; unfold out_step in H; key_chain H; try clash; crack H.
Ltac out_hit := let H := fresh "H" in intros ? ? ? H; out_open H; unfold told; cbn [o_format o_timer o_dt o_it o_elem o_node o_gauss o_mat];
  first [ match goal with A : as_num _ _ = Done _ |- _ => rewrite (nums_done _ _ _ A); reflexivity end
        | match goal with A : names _ _ _ _ = Done _ |- _ => exact (names_listed _ _ _ _ A) end
        | match goal with A : In _ _ |- _ => exact (in_map (fun p => (fst p, Some (snd p))) _ _ A) end
        | match goal with A : names _ _ _ ?old = Done _ |- _ => apply names_listed in A; destruct A as (new & A & ->); exists new; split; [exact A|];
            pose proof (add_mass_spec (old ++ new)) as X; rewrite <- app_assoc in X; rewrite <- ?app_assoc; exact X end ].
Ltac out_miss := let H := fresh "H" in let N := fresh "N" in intros ? ? ? ? H N; out_open H; first [reflexivity|clash|congruence].

Lemma out_allowed s w v s' : out_step dbl s w v = Done s' -> In w (map lit out_keys).
Proof. intros H. out_open H; unfold out_keys; find_lit. Qed.

Lemma read_nothing {St} (step : St -> str -> node -> out St) m s s' : (forall s v, step s [] v = Throws UnknownKey) ->
  over_words step (NSeq m) (word_list (NSeq m)) s = Done s' -> s' = s.
Proof. intros N. destruct m as [|e m]; cbn; [intros H; inversion H; reflexivity|]. rewrite N. discriminate. Qed.

Lemma out_done root o o' : regular root -> parse_output_options dbl root o = Done o' ->
  let sec := get_key root (lit "output_options") in
  container sec /\ only_keys sec out_keys /\ out_says dbl sec o o'.
Proof.
  intros R H. cbv zeta. pose proof (regular_get root (lit "output_options") R) as RS. unfold parse_output_options in H.
  set (sec := get_key root (lit "output_options")) in *. clearbody sec. apply read_inv in H. destruct H as (C & _ & O). split; [exact C|].
  destruct (container_cases sec C) as [[m M]|[m M]].
  - split; [intros k K; exact (sec_each _ sec o o' m M RS O (fun w _ => In w (map lit out_keys)) out_allowed k K)|].
    unfold out_says. repeat match goal with |- _ /\ _ => split end;
    first [ eapply sec_field; [exact M|exact RS|exact O|out_hit|out_miss]
          | eapply sec_choice; [exact M|exact RS|exact O|out_hit|out_miss]
          | refine (sec_rel _ sec o o' m M RS O _ _ (fun old v l => exists new, names_of v _ new /\ l = old ++ new) _ _); [out_hit|out_miss]
          | refine (sec_rel _ sec o o' m M RS O _ _ (fun old v l => exists new, names_of v _ new /\ (In MSie (old ++ new) /\ ~ In MMass (old ++ new) -> l = old ++ new ++ [MMass]) /\
     (~ In MSie (old ++ new) \/ In MMass (old ++ new) -> l = old ++ new)) _ _); [out_hit|out_miss] ].
  - rewrite M in O. apply read_nothing in O; [|intros [] v; reflexivity]. subst. split; [intros k []|].
    unfold out_says, field, choice, listed, listed_mass, gives. cbn [map_of map In]. intuition.
Qed.

Lemma pick_ok {A B} (m : list (str * A)) v (f : A -> B) : In (as_string v) (map fst m) -> exists y, pick m v f = Done y.
Proof. intros I. unfold pick. destruct (assoc_some m _ I) as [x ->]. eauto. Qed.
Lemma pick_bad {A B} (m : list (str * A)) v (f : A -> B) : ~ In (as_string v) (map fst m) -> pick m v f = Throws UnknownOption.
Proof. intros I. unfold pick. rewrite assoc_none by exact I. reflexivity. Qed.

Lemma out_takes s w sec : In w (map lit out_keys) -> out_value sec w -> exists s', out_step dbl s w (get_key sec w) = Done s'.
Proof.
  intros I (F & T & N & L). unfold text_at in *. unfold out_keys in I. destruct s. unfold out_step. each_key I; keys_goal.
  - apply pick_ok. apply T. reflexivity.
  - apply pick_ok. apply F. reflexivity.
  - rewrite as_num_ok by (apply N; auto). eexists. reflexivity.
  - rewrite as_num_ok by (apply N; auto). eexists. reflexivity.
  - edestruct (@names_ok matf) as [l E]; [|rewrite E; eexists; reflexivity]. intros i X. apply in_seq in X. apply L; [lia|reflexivity].
  - edestruct (@names_ok nodef) as [l E]; [|rewrite E; eexists; reflexivity]. intros i X. apply in_seq in X. apply L; [lia|reflexivity].
  - edestruct (@names_ok matf) as [l E]; [|rewrite E; eexists; reflexivity]. intros i X. apply in_seq in X. apply L; [lia|reflexivity].
  - edestruct (@names_ok gaussf) as [l E]; [|rewrite E; eexists; reflexivity]. intros i X. apply in_seq in X. apply L; [lia|reflexivity].
Qed.

Lemma out_accepts root o : let sec := get_key root (lit "output_options") in
  is_map sec = true -> only_keys sec out_keys -> (forall k, gives sec k -> out_value sec k) ->
  exists o', parse_output_options dbl root o = Done o'.
Proof.
  cbv zeta. unfold parse_output_options. generalize (get_key root (lit "output_options")). intros sec M OK B.
  destruct sec as [|?|m|?]; try discriminate. unfold read_section. rewrite validate_ok; [|left; reflexivity|intros r []]. cbn [obnd].
  destruct (over_ok (fun _ => True) (out_step dbl) (NMap m) (word_list (NMap m)) o) as (o' & E & _); [exact Logic.I| |eauto].
  intros w W s _. destruct (out_takes s w (NMap m) (OK w W) (B w W)) as [s' E]. eauto.
Qed.

(* ---------- when the mesh options are accepted ---------- *)

Context (stod : str -> option D) (count : str -> option Z) (zero : D).

Lemma three_triple {B} (num : str -> option B) z v p : three num z (as_string v) p -> triple num z v = Done p.
Proof.
  intros (o & l & c & E & F & L & X & Y & Z1 & Z2). unfold triple. rewrite E.
  change (lit ",") with [","%char]. rewrite (StrProps.C35_array_values ","%char l o c); [|intros ->; cbn in L; lia|exact F].
  destruct l as [|a [|b l]]; try (cbn in L; lia). cbn [nth] in X, Y. cbn [nth_error]. rewrite X, Y. destruct p as [[x y] w]. cbn [fst snd] in *.
  destruct (Nat.eqb (List.length (a :: b :: l)) 3) eqn:E3.
  - apply Nat.eqb_eq in E3. destruct l as [|d [|e l]]; try discriminate. cbn [nth_error nth] in *. rewrite (Z1 E3). reflexivity.
  - apply Nat.eqb_neq in E3. rewrite (Z2 E3). reflexivity.
Qed.

Lemma mesh_takes s w sec : In w (map lit mesh_keys) -> mesh_value stod count zero sec w ->
  exists s', mesh_word dbl stod count zero s w (get_key sec w) = Done s' /\
    (w = lit "source" \/ m_source s' = m_source s) /\ (w = lit "file_path" \/ m_path s' = m_path s).
Proof.
  intros I (S & T & O & L & N & B). unfold text_at in *. unfold mesh_keys in I. destruct s. unfold mesh_word. each_key I; keys_goal.
  1: rewrite as_num_ok by (apply B; [discriminate..]).
  2: destruct (assoc_some mesh_source_map _ (S eq_refl)) as [x E]; unfold pick; rewrite E; eexists; split; [reflexivity|]; split; [left; reflexivity|right; reflexivity].
  2: eexists; split; [reflexivity|]; split; [right; reflexivity|left; reflexivity].
  2: destruct (assoc_some mesh_type_map _ (T eq_refl)) as [x E]; unfold pick; rewrite E.
  3: destruct (O eq_refl) as [p P]; rewrite (three_triple _ _ _ _ P).
  4: destruct (L eq_refl) as [p P]; rewrite (three_triple _ _ _ _ P).
  5: destruct (N eq_refl) as [p P]; rewrite (three_triple _ _ _ _ P).
  6-15: rewrite as_num_ok by (apply B; discriminate).
  all: eexists; split; [reflexivity|]; split; right; reflexivity.
Qed.

Lemma mesh_accepts root o : m_source o = SrcNone -> m_path o = [] -> let sec := get_key root (lit "mesh_options") in
  is_map sec = true -> only_keys sec mesh_keys -> gives sec (lit "source") -> gives sec (lit "num_dims") ->
  (forall k, gives sec k -> mesh_value stod count zero sec k) ->
  ~ (text_at sec (lit "source") = lit "generate" /\ gives sec (lit "file_path") /\ text_at sec (lit "file_path") <> []) ->
  exists o', parse_mesh_inputs dbl stod count zero root o = Done o'.
Proof.
  intros S0 P0. cbv zeta. unfold parse_mesh_inputs. generalize (get_key root (lit "mesh_options")). intros sec M OK T C V NG.
  destruct sec as [|?|m|?]; try discriminate. unfold read_section. rewrite validate_ok; [|left; reflexivity|intros r [<-|[<-|[]]]; assumption]. cbn [obnd].
  set (sec := NMap m) in *.
  pose (P := fun s : @mesh_in D => (m_source s = SrcGenerate -> text_at sec (lit "source") = lit "generate") /\
    (m_path s = [] \/ gives sec (lit "file_path") /\ m_path s = text_at sec (lit "file_path"))).
  destruct (over_ok P (mesh_step dbl stod count zero) sec (word_list sec) o) as (o' & E & _); [split; [rewrite S0; discriminate|left; exact P0]| |eauto].
  intros w W s [PS PP]. destruct (mesh_takes s w sec (OK w W) (V w W)) as (s' & E & XS & XP).
  assert (PN : P s').
  { split.
    - destruct XS as [->|XS]; [|rewrite XS; exact PS]. intros G. unfold mesh_word in E. destruct s. revert E. keys_goal. intros E.
      apply pick_done in E. destruct E as (x & I & ->). cbn in G. subst x. unfold text_at. destruct I as [I|[I|[]]]; [|discriminate (f_equal snd I)]. exact (eq_sym (f_equal fst I)).
    - destruct XP as [->|XP]; [|rewrite XP; exact PP]. right. split; [exact W|]. destruct s. unfold mesh_word in E. revert E. keys_goal. intros E. inversion E. reflexivity. }
  exists s'. split; [|exact PN]. unfold mesh_step. rewrite E. cbn [obnd]. unfold mesh_check.
  destruct PN as [QS QP]. destruct (m_source s') eqn:SE; try reflexivity. destruct (m_path s') as [|c r] eqn:PE; [reflexivity|].
  exfalso. apply NG. split; [apply QS; reflexivity|]. destruct QP as [QP|[G QP]]; [discriminate|]. split; [exact G|]. rewrite <- QP. discriminate.
Qed.
End Out.
