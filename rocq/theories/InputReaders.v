(* What the readers of dynamic options, mesh options and output options store. *)
From Coq Require Import List Ascii String Arith Bool ZArith Lia.
From Verif Require Import YamlModel YamlSpec YamlProofs YamlLaws InputModel InputSpec InputProofs.
From Verif Require StrModel StrSpec StrProps.
Import ListNotations.
Local Open Scope nat_scope.

Lemma nums_done {D} (conv : str -> D) v x : as_num conv v = Done x -> x = conv (as_string v).
Proof. intros H. apply as_num_done in H. tauto. Qed.

(* Computes the comparisons of literal keys in the goal. *)
Ltac keys_goal := repeat match goal with |- context[str_eqb (lit ?a) (lit ?b)] =>
  let r := eval vm_compute in (str_eqb (lit a) (lit b)) in change (str_eqb (lit a) (lit b)) with r end; cbv iota.

Ltac each_key I := cbn [map In] in I; repeat (destruct I as [<-|I]; [|]); [..|destruct I].

Lemma keys_only sec l : only_keys sec l -> forall w, In w (map fst (map_of sec)) -> In w (map lit l).
Proof. intros H w. apply H. Qed.

Section Readers.
Context {D : Type} (dbl : str -> D).

(* ---------- dynamic options ---------- *)

Ltac dyn_hit := let H := fresh "H" in intros ? ? ? H; match type of H with dyn_step _ ?s _ _ = _ => destruct s end; unfold dyn_step in H;
  key_chain H; try clash; crack H; unfold told; cbn; match goal with A : as_num _ _ = Done _ |- _ => rewrite (nums_done _ _ _ A); reflexivity end.
Ltac dyn_miss := let H := fresh "H" in let N := fresh "N" in intros ? ? ? ? H N; match type of H with dyn_step _ ?s _ _ = _ => destruct s end; unfold dyn_step in H;
  key_chain H; crack H; first [reflexivity|clash|congruence].

Lemma dyn_allowed s w v s' : dyn_step dbl s w v = Done s' -> In w (map lit dyn_keys) /\ ~ blank_text (as_string v).
Proof. intros H. destruct s; unfold dyn_step in H; key_chain H; crack H; (split; [find_lit|eapply as_num_done; eassumption]). Qed.

Lemma dyn_done root o o' : regular root -> parse_dynamic_options dbl root o = Done o' ->
  let sec := get_key root (lit "dynamic_options") in
  is_map sec = true /\ only_keys sec dyn_keys /\ gives sec (lit "time_final") /\ gives sec (lit "cycle_stop") /\
  (forall k, gives sec k -> ~ blank_text (text_at sec k)) /\ dyn_says dbl sec o o'.
Proof.
  intros R H. cbv zeta. pose proof (regular_get root (lit "dynamic_options") R) as RS. unfold parse_dynamic_options in H.
  set (sec := get_key root (lit "dynamic_options")) in *. clearbody sec. apply read_inv in H. destruct H as (C & Q & O).
  assert (T : In (lit "time_final") (word_list sec)) by (apply Q; left; reflexivity).
  assert (T2 : In (lit "cycle_stop") (word_list sec)) by (apply Q; right; left; reflexivity).
  destruct (needs_map sec _ C (lit_ne _ _) T) as [m M].
  split; [rewrite M; reflexivity|].
  split; [intros k K; exact (proj1 (sec_each _ sec o o' m M RS O (fun w v => In w (map lit dyn_keys) /\ ~ blank_text (as_string v)) dyn_allowed k K))|].
  split; [apply word_gives; [discriminate|exact T]|]. split; [apply word_gives; [discriminate|exact T2]|].
  split; [intros k K; exact (proj2 (sec_each _ sec o o' m M RS O (fun w v => In w (map lit dyn_keys) /\ ~ blank_text (as_string v)) dyn_allowed k K))|].
  unfold dyn_says. repeat match goal with |- _ /\ _ => split end;
  (eapply sec_field; [exact M|exact RS|exact O|dyn_hit|dyn_miss]).
Qed.

Lemma dyn_takes s w v : In w (map lit dyn_keys) -> ~ blank_text (as_string v) -> exists s', dyn_step dbl s w v = Done s'.
Proof.
  intros I N. unfold dyn_keys in I. destruct s. unfold dyn_step. each_key I; keys_goal; rewrite as_num_ok by exact N; cbn [obnd]; eexists; reflexivity.
Qed.

Lemma dyn_refuses s w v : ~ In w (map lit dyn_keys) -> dyn_step dbl s w v = Throws UnknownKey.
Proof.
  intros N. destruct s. unfold dyn_step.
  repeat match goal with |- context[str_eqb w (lit ?k)] => let E := fresh "E" in destruct (str_eqb w (lit k)) eqn:E; [apply str_eqb_eq in E; exfalso; apply N; rewrite E; unfold dyn_keys; find_lit|] end.
  reflexivity.
Qed.

Lemma dyn_accepts root o : let sec := get_key root (lit "dynamic_options") in
  is_map sec = true -> only_keys sec dyn_keys -> gives sec (lit "time_final") -> gives sec (lit "cycle_stop") ->
  (forall k, gives sec k -> ~ blank_text (text_at sec k)) -> exists o', parse_dynamic_options dbl root o = Done o'.
Proof.
  cbv zeta. unfold parse_dynamic_options. generalize (get_key root (lit "dynamic_options")). intros sec M OK T C B.
  destruct sec as [|?|m|?]; try discriminate. unfold read_section. rewrite validate_ok; [|left; reflexivity|intros r [<-|[<-|[]]]; assumption]. cbn [obnd].
  destruct (over_ok (fun _ => True) (dyn_step dbl) (NMap m) (word_list (NMap m)) o) as (o' & E & _); [exact Logic.I| |eauto].
  intros w W s _. destruct (dyn_takes s w (get_key (NMap m) w) (OK w W) (B w W)) as [s' E]. eauto.
Qed.

Lemma dyn_missing root o k : let sec := get_key root (lit "dynamic_options") in
  is_map sec = true -> In k dyn_required -> ~ gives sec k -> parse_dynamic_options dbl root o = Throws MissingRequired.
Proof.
  cbv zeta. unfold parse_dynamic_options. generalize (get_key root (lit "dynamic_options")). intros sec M I G.
  destruct sec as [|?|m|?]; try discriminate. unfold read_section. rewrite (validate_missing _ _ k); [reflexivity|left; reflexivity|exact I|exact G].
Qed.

Lemma dyn_unknown root o : let sec := get_key root (lit "dynamic_options") in
  is_map sec = true -> gives sec (lit "time_final") -> gives sec (lit "cycle_stop") ->
  (forall k, gives sec k -> ~ blank_text (text_at sec k)) -> (exists k, gives sec k /\ ~ In k (map lit dyn_keys)) ->
  parse_dynamic_options dbl root o = Throws UnknownKey.
Proof.
  cbv zeta. unfold parse_dynamic_options. generalize (get_key root (lit "dynamic_options")). intros sec M T C B (k & K & N).
  destruct sec as [|?|m|?]; try discriminate. unfold read_section. rewrite validate_ok; [|left; reflexivity|intros r [<-|[<-|[]]]; assumption]. cbn [obnd].
  apply over_fail; [|exists k; split; [exact K|intros s; apply dyn_refuses; exact N]].
  intros w W s. destruct (in_dec (list_eq_dec ascii_dec) w (map lit dyn_keys)) as [I|I]; [left; apply dyn_takes; [exact I|exact (B w W)]|right; apply dyn_refuses; exact I].
Qed.

(* ---------- mesh options ---------- *)

Lemma triple_three {B} (num : str -> option B) zero v p : triple num zero v = Done p -> three num zero (as_string v) p.
Proof.
  unfold triple. destruct (StrModel.exact_array_values (as_string v) (lit ",")) as [l|] eqn:E; [|discriminate]. intros H.
  assert (S : exists o c, as_string v = o :: StrSpec.join (lit ",") l ++ [c] /\ Forall (fun t => ~ In ","%char t) l).
  { unfold StrModel.exact_array_values in E. destruct (as_string v) as [|o [|x r]]; try discriminate.
    destruct (StrProps.C35_split (removelast (x :: r)) (lit ",") ltac:(discriminate)) as (l' & S & _ & J & F).
    rewrite S in E. inversion E; subst l'. exists o, (last (x :: r) o). rewrite J. split; [f_equal; apply app_removelast_last; discriminate|].
    eapply Forall_impl; [|exact F]. intros t N I. apply N. apply in_split in I. destruct I as (a & b & ->). exists a, b. reflexivity. }
  destruct S as (o & c & S & F). exists o, l, c. split; [exact S|]. split; [exact F|].
  destruct l as [|a [|b l]]; cbn [nth_error] in H; [discriminate|destruct (num a); discriminate|].
  split; [cbn; lia|]. cbn [nth]. destruct (num a) as [x|]; [|discriminate]. destruct (num b) as [y|]; [|discriminate].
  destruct (Nat.eqb (List.length (a :: b :: l)) 3) eqn:L.
  - apply Nat.eqb_eq in L. destruct l as [|d [|e l]]; try discriminate. cbn [nth_error nth] in *. destruct (num d) as [z|]; [|discriminate].
    inversion H; subst. cbn [fst snd]. split; [reflexivity|]. split; [reflexivity|]. split; [reflexivity|]. intros X. destruct (X L).
  - apply Nat.eqb_neq in L. inversion H; subst. cbn [fst snd]. split; [reflexivity|]. split; [reflexivity|]. split; [intros X; destruct (L X)|reflexivity].
Qed.

Context (stod : str -> option D) (count : str -> option Z) (zero : D).

Lemma mesh_step_done s w v s' : mesh_step dbl stod count zero s w v = Done s' ->
  mesh_word dbl stod count zero s w v = Done s' /\ (m_source s' = SrcGenerate -> m_path s' = []).
Proof.
  intros H. apply obnd_done in H. destruct H as (s1 & A & C). unfold mesh_check in C. destruct (m_source s1) eqn:S1; [|destruct (m_path s1) eqn:P; [|discriminate]|]; inversion C; subst; (split; [exact A|]); congruence.
Qed.

Ltac mesh_open H := apply mesh_step_done in H; destruct H as [H _]; match type of H with mesh_word _ _ _ _ ?s _ _ = _ => destruct s end; unfold mesh_word in H; key_chain H; try clash; crack H.
Ltac mesh_hit := let H := fresh "H" in intros ? ? ? H; mesh_open H; unfold told; cbn [m_dims m_source m_path m_type m_origin m_length m_elems m_order m_inner m_outer m_start m_ending m_nrad m_nang m_sx m_sy m_sz];
  first [ match goal with A : as_num _ _ = Done _ |- _ => rewrite (nums_done _ _ _ A); reflexivity end
        | reflexivity
        | assumption
        | match goal with A : triple _ _ _ = Done _ |- _ => exact (triple_three _ _ _ _ A) end
        | match goal with A : In _ _ |- _ => exact (in_map (fun p => (fst p, Some (snd p))) _ _ A) end ].
Ltac mesh_miss := let H := fresh "H" in let N := fresh "N" in intros ? ? ? ? H N; mesh_open H; first [reflexivity|clash|congruence].

Lemma mesh_allowed s w v s' : mesh_step dbl stod count zero s w v = Done s' -> In w (map lit mesh_keys).
Proof. intros H. mesh_open H; unfold mesh_keys; find_lit. Qed.

Lemma mesh_done root o o' : regular root -> parse_mesh_inputs dbl stod count zero root o = Done o' ->
  let sec := get_key root (lit "mesh_options") in
  is_map sec = true /\ only_keys sec mesh_keys /\ gives sec (lit "source") /\ gives sec (lit "num_dims") /\
  (m_source o' = SrcGenerate -> m_path o' = []) /\ mesh_says dbl stod count zero sec o o'.
Proof.
  intros R H. cbv zeta. pose proof (regular_get root (lit "mesh_options") R) as RS. unfold parse_mesh_inputs in H.
  set (sec := get_key root (lit "mesh_options")) in *. clearbody sec. apply read_inv in H. destruct H as (C & Q & O).
  assert (T : In (lit "source") (word_list sec)) by (apply Q; left; reflexivity).
  assert (T2 : In (lit "num_dims") (word_list sec)) by (apply Q; right; left; reflexivity).
  destruct (needs_map sec _ C (lit_ne _ _) T) as [m M].
  split; [rewrite M; reflexivity|].
  split; [intros k K; exact (sec_each _ sec o o' m M RS O (fun w _ => In w (map lit mesh_keys)) mesh_allowed k K)|].
  apply word_gives in T, T2; try discriminate. split; [exact T|]. split; [exact T2|].
  split; [exact (sec_last _ sec o o' m M RS O (fun s => m_source s = SrcGenerate -> m_path s = []) _ T (fun s w v s' X => proj2 (mesh_step_done s w v s' X)))|].
  unfold mesh_says. repeat match goal with |- _ /\ _ => split end;
  first [ eapply sec_field; [exact M|exact RS|exact O|mesh_hit|mesh_miss]
        | eapply sec_choice; [exact M|exact RS|exact O|mesh_hit|mesh_miss]
        | refine (sec_rel _ sec o o' m M RS O _ _ (fun _ v p => three _ _ (as_string v) p) _ _); [mesh_hit|mesh_miss] ].
Qed.
End Readers.
