(* The lines of a document after splitting. *)
From Coq Require Import List Ascii String Arith Bool Lia.
From Verif Require Import YamlModel YamlSpec YamlProofs YamlPost.
Import ListNotations.
Local Open Scope nat_scope.

Definition marker_free (d : doc) : Prop :=
  match d with DText Bare v _ => v <> lit "---" /\ v <> lit "..." | _ => True end.

Definition is_dseq (d : doc) : bool := match d with DSeq _ => true | _ => false end.

Lemma ok_text_inv b q v t : doc_ok b (DText q v t) -> text_ok q v /\ (b = false -> ~ has ":" v).
Proof. intros H. inversion H; subst. auto. Qed.
Lemma ok_seq_inv b es : doc_ok b (DSeq es) -> es <> [] /\ (forall p c, In (p, c) es -> doc_ok false c) /\
  (forall p c, In (p, c) es -> same_line p = true -> is_dseq c = false).
Proof.
  intros H. inversion H; subst. split; [assumption|]. split; [assumption|]. intros p c I S.
  destruct c as [q v t|es'|es']; try reflexivity. exfalso. match goal with K : forall p c es', _ -> _ -> c <> DSeq es' |- _ => exact (K p _ es' I S eq_refl) end.
Qed.
Lemma ok_map_inv b es : doc_ok b (DMap es) -> es <> [] /\ (forall k p c, In (k, p, c) es -> key_ok k) /\
  (forall k p c, In (k, p, c) es -> doc_ok (same_line p) c) /\
  (forall k p c, In (k, p, c) es -> same_line p = true -> exists q v t, c = DText q v t).
Proof. intros H. inversion H; subst. auto. Qed.

Lemma doc_head b d : doc_ok b d -> forall off, exists s r, doc_lines off d = (off, s) :: r /\ s <> [] /\ ~ blank (hd c_sp s).
Proof.
  revert b. induction d as [q v t|es IH|es IH] using doc_ind'; intros b H off.
  3: pose proof (ok_map_inv _ _ H) as (NE & HK & HC & HT).
  2: pose proof (ok_seq_inv _ _ H) as (NE & HC & HQ).
  1: pose proof (ok_text_inv _ _ _ _ H) as (HX & HN).
  - exists (quoted q v ++ spaces t), []. split; [reflexivity|]. rewrite hd_app by (apply text_ne; assumption).
    split; [|apply text_hd; assumption]. intros E. apply app_eq_nil in E. destruct E as [E _]. revert E. apply text_ne. assumption.
  - destruct es as [|[p c] es]; [destruct (NE eq_refl)|]. cbn [doc_lines flat_map]. destruct p as [g|tr i].
    + destruct (IH (SameLine g) c (or_introl eq_refl) false (HC _ _ (or_introl eq_refl)) (off + 2 + g)) as (s & r & E & _). rewrite E.
      eexists _, _. split; [reflexivity|]. split; [discriminate|]. intros [K|K]; discriminate.
    + eexists _, _. split; [reflexivity|]. split; [discriminate|]. intros [K|K]; discriminate.
  - destruct es as [|[[k p] c] es]; [destruct (NE eq_refl)|]. cbn [doc_lines flat_map].
    assert (K : key_ok k) by (eapply HK; left; reflexivity).
    assert (N : forall t, (key_str k ++ lit ":" ++ t) <> []).
    { intros t E. apply app_eq_nil in E. exact (key_ne k K (proj1 E)). }
    assert (B : forall t, ~ blank (hd c_sp (key_str k ++ lit ":" ++ t))).
    { intros t. rewrite hd_app by (apply key_ne; exact K). apply key_hd. exact K. }
    destruct p as [g|tr i].
    + destruct (IH k (SameLine g) c (or_introl eq_refl) true (HC _ _ _ (or_introl eq_refl)) 0) as (s & r & E & _). rewrite E.
      eexists _, _. split; [reflexivity|]. auto.
    + eexists _, _. split; [reflexivity|]. auto.
Qed.

Lemma spaces_end v t m : v ++ spaces t = m -> List.last m c_nl <> c_sp -> t = 0.
Proof.
  intros E L. destruct t as [|t]; [reflexivity|]. exfalso. apply L. rewrite <- E.
  unfold spaces. cbn [repeat]. rewrite repeat_cons, app_assoc, last_last. reflexivity.
Qed.

Lemma forall_printable_spaces t : Forall printable (spaces t).
Proof. apply Forall_forall. intros c C. rewrite (in_spaces _ _ C). exact printable_sp. Qed.

Lemma spaces_no_hash t : ~ In "#"%char (spaces t). Proof. intros I. apply in_spaces in I. discriminate. Qed.

Lemma line_ok_text off q v t : text_ok q v -> (off = 0 -> marker_free (DText q v t)) -> line_ok off (quoted q v ++ spaces t).
Proof.
  intros T M. repeat split.
  - intros E. apply app_eq_nil in E. destruct E as [E _]. revert E. apply text_ne. exact T.
  - apply Forall_app. split; [apply text_printable; exact T|apply forall_printable_spaces].
  - rewrite hd_app by (apply text_ne; exact T). apply text_hd. exact T.
  - intros I. apply in_app_or in I. destruct I as [I|I]; [exact (text_no_hash q v T I)|exact (spaces_no_hash _ I)].
  - apply bal_app_no_dq; [apply text_bal; exact T|apply spaces_no_dq].
  - intros E. destruct q; try discriminate. pose proof (spaces_end _ _ _ E ltac:(discriminate)) as ->. cbn in E. rewrite app_nil_r in E.
    exact (proj1 (M H) E).
  - intros E. destruct q; try discriminate. pose proof (spaces_end _ _ _ E ltac:(discriminate)) as ->. cbn in E. rewrite app_nil_r in E.
    exact (proj2 (M H) E).
Qed.

(* a line that starts with "-" and a space or is "-", before any good text *)
Lemma line_ok_dash off g s n : line_ok n s -> line_ok off (lit "-" ++ spaces (S g) ++ s).
Proof.
  intros (N & P & B & H & Q & _). repeat split.
  - discriminate.
  - constructor; [right; vm_compute; lia|]. apply Forall_app. split; [apply forall_printable_spaces|exact P].
  - intros [K|K]; discriminate.
  - intros [I|I]; [discriminate I|]. change (In "#"%char (spaces (S g) ++ s)) in I. apply in_app_or in I. destruct I as [I|I]; [exact (spaces_no_hash _ I)|exact (H I)].
  - rewrite app_assoc. apply bal_app; [apply bal_no_dq|exact Q|].
    + intros [I|I]; [discriminate|]. exact (spaces_no_dq _ I).
    + intros p _. rewrite plast_app by discriminate. rewrite plast_spaces. discriminate.
  - discriminate.
  - discriminate.
Qed.
Lemma line_ok_dash0 off t : line_ok off (lit "-" ++ spaces t).
Proof.
  repeat split.
  - discriminate.
  - constructor; [right; vm_compute; lia|apply forall_printable_spaces].
  - intros [K|K]; discriminate.
  - intros [I|I]; [discriminate I|exact (spaces_no_hash _ I)].
  - apply bal_no_dq. intros [I|I]; [discriminate|exact (spaces_no_dq _ I)].
  - destruct t; discriminate.
  - destruct t; discriminate.
Qed.
Lemma line_ok_key off k s : key_ok k -> Forall printable s -> ~ In "#"%char s -> bal s ->
  line_ok off (key_str k ++ lit ":" ++ s).
Proof.
  intros K P H Q. assert (C : In ":"%char (key_str k ++ lit ":" ++ s)) by (apply in_or_app; right; left; reflexivity).
  repeat split.
  - intros E. apply app_eq_nil in E. exact (key_ne k K (proj1 E)).
  - apply Forall_app. split; [apply key_printable; exact K|]. constructor; [right; vm_compute; lia|exact P].
  - rewrite hd_app by (apply key_ne; exact K). apply key_hd. exact K.
  - intros I. apply in_app_or in I. destruct I as [I|[I|I]]; [|discriminate I|exact (H I)].
    revert I. apply key_no; [exact (proj1 (proj2 K))|discriminate|discriminate].
  - rewrite app_assoc. apply bal_app; [|exact Q|].
    + apply bal_app_no_dq; [exact (proj2 (key_quotes k K))|]. intros [I|[]]; discriminate.
    + intros p _. change (lit ":") with [":"%char]. rewrite plast_snoc. discriminate.
  - intros E. rewrite E in C. cbn in C. intuition discriminate.
  - intros E. rewrite E in C. cbn in C. intuition discriminate.
Qed.

Lemma bal_spaces g s : bal s -> bal (spaces g ++ s).
Proof.
  intros Q. apply bal_app; [apply bal_no_dq; apply spaces_no_dq|exact Q|]. intros p Hp. destruct g; [exact Hp|]. rewrite plast_spaces. discriminate.
Qed.

Lemma lines_ok d : forall b off, doc_ok b d -> (off = 0 -> marker_free d) ->
  forall n s, In (n, s) (doc_lines off d) -> line_ok n s.
Proof.
  induction d as [q v t|es IH|es IH] using doc_ind'; intros b off H M n s I.
  3: pose proof (ok_map_inv _ _ H) as (NE & HK & HC & HT).
  2: pose proof (ok_seq_inv _ _ H) as (NE & HC & HQ).
  1: pose proof (ok_text_inv _ _ _ _ H) as (HX & HN).
  - destruct I as [I|[]]. inversion I; subst. apply line_ok_text; assumption.
  - cbn [doc_lines] in I. apply in_flat_map in I. destruct I as ([p c] & E & I).
    assert (C : doc_ok false c) by (eapply HC; exact E).
    destruct p as [g|tr i].
    + destruct (doc_head false c C (off + 2 + g)) as (s' & r & D & _).
      assert (G : forall n s, In (n, s) (doc_lines (off + 2 + g) c) -> line_ok n s).
      { apply (IH _ _ E false); [exact C|lia]. }
      rewrite D in I, G. destruct I as [I|I]; [|apply G; right; exact I]. inversion I; subst.
      eapply line_ok_dash. apply G. left. reflexivity.
    + destruct I as [I|I]; [inversion I; subst; apply line_ok_dash0|].
      apply (IH _ _ E false (off + S i)); [exact C|lia|exact I].
  - cbn [doc_lines] in I. apply in_flat_map in I. destruct I as ([[k p] c] & E & I).
    assert (C : doc_ok (same_line p) c) by (eapply HC; exact E). assert (K : key_ok k) by (eapply HK; exact E).
    destruct p as [g|tr i].
    + destruct (HT _ _ _ E eq_refl) as (q & v & t & ->). cbn [doc_lines] in I. destruct I as [I|[]]. inversion I; subst.
      inversion C; subst. apply line_ok_key; [exact K| | |].
      * apply Forall_app. split; [apply forall_printable_spaces|]. apply Forall_app. split; [apply text_printable; assumption|apply forall_printable_spaces].
      * intros J. apply in_app_or in J. destruct J as [J|J]; [exact (spaces_no_hash _ J)|].
        apply in_app_or in J. destruct J as [J|J]; [revert J; apply text_no_hash; assumption|exact (spaces_no_hash _ J)].
      * apply bal_spaces. apply bal_app_no_dq; [apply text_bal; assumption|apply spaces_no_dq].
    + destruct I as [I|I].
      * inversion I; subst. apply line_ok_key; [exact K|apply forall_printable_spaces|apply spaces_no_hash|].
        apply bal_no_dq. apply spaces_no_dq.
      * apply (IH _ _ _ E false (off + S i)); [exact C|lia|exact I].
Qed.

(* ---------- the typed lines ---------- *)

Fixpoint typed (off : nat) (d : doc) : list rline :=
  match d with
  | DText q v t => [mkL (quoted q v ++ spaces t) off LScalar]
  | DSeq es =>
      flat_map (fun e : place * doc =>
        let (p, c) := e in
        match p with
        | SameLine g => mkL [] off LSeq :: typed (off + 2 + g) c
        | NextLine t i => mkL (lit "-" ++ spaces t) off LSeq :: typed (off + S i) c
        end) es
  | DMap es =>
      flat_map (fun e : dkey * place * doc =>
        let '(k, p, c) := e in
        match p with
        | SameLine g => mkL (k_text k) off LMap :: typed (List.length (key_str k) + 1 + g + off) c
        | NextLine t i => mkL (k_text k) off LMap :: typed (off + S i) c
        end) es
  end.

Definition seq_entry (off : nat) (e : place * doc) : list rline :=
  let (p, c) := e in
  match p with
  | SameLine g => mkL [] off LSeq :: typed (off + 2 + g) c
  | NextLine t i => mkL (lit "-" ++ spaces t) off LSeq :: typed (off + S i) c
  end.
Definition map_entry (off : nat) (e : dkey * place * doc) : list rline :=
  let '(k, p, c) := e in
  match p with
  | SameLine g => mkL (k_text k) off LMap :: typed (List.length (key_str k) + 1 + g + off) c
  | NextLine t i => mkL (k_text k) off LMap :: typed (off + S i) c
  end.
Definition seq_entry_lines (level : nat) (e : place * doc) : list (nat * str) :=
  let (p, c) := e in
  match p with
  | SameLine g =>
      match doc_lines (level + 2 + g) c with
      | [] => []
      | (_, s) :: r => (level, lit "-" ++ spaces (S g) ++ s) :: r
      end
  | NextLine t i => (level, lit "-" ++ spaces t) :: doc_lines (level + S i) c
  end.
Definition map_entry_lines (level : nat) (e : dkey * place * doc) : list (nat * str) :=
  let '(k, p, c) := e in
  match p with
  | SameLine g =>
      match doc_lines 0 c with
      | [] => []
      | (_, s) :: r => (level, key_str k ++ lit ":" ++ spaces g ++ s) :: r
      end
  | NextLine t i => (level, key_str k ++ lit ":" ++ spaces t) :: doc_lines (level + S i) c
  end.
Lemma typed_seq off es : typed off (DSeq es) = flat_map (seq_entry off) es. Proof. reflexivity. Qed.
Lemma typed_map off es : typed off (DMap es) = flat_map (map_entry off) es. Proof. reflexivity. Qed.
Lemma lines_seq off es : doc_lines off (DSeq es) = flat_map (seq_entry_lines off) es. Proof. reflexivity. Qed.
Lemma lines_map off es : doc_lines off (DMap es) = flat_map (map_entry_lines off) es. Proof. reflexivity. Qed.

Lemma typed_ne b d : doc_ok b d -> forall off, typed off d <> [].
Proof.
  intros H off. inversion H; subst; [discriminate| |].
  - destruct es as [|[[g|t i] c] es]; [contradiction| |]; discriminate.
  - destruct es as [|[[k [g|t i]] c] es]; [contradiction| |]; discriminate.
Qed.

(* ---------- splitting the lines of a document ---------- *)

Definition bound (prev : option nat) (off : nat) : nat := match prev with Some p => p | None => off end.

(* what running on [run] amounts to: the typed lines, then the rest *)
Definition splits (run : res (list rline)) (T : list rline) (off : nat) (R : list rline) : Prop :=
  exists ls', filter ne ls' = R /\ starts_ne ls' /\
    run = rbind (ppx (Some (last_off off T)) ls') (fun out => Ok (T ++ out)).

Lemma last_off_app o a b : b <> [] -> last_off o (a ++ b) = last_off o b.
Proof.
  intros N. unfold last_off. rewrite rev_app_distr. destruct (rev b) eqn:E; [|reflexivity].
  exfalso. apply N. rewrite <- (rev_involutive b), E. reflexivity.
Qed.
Lemma last_off_ne o o' a : a <> [] -> last_off o a = last_off o' a.
Proof.
  intros N. unfold last_off. destruct (rev a) eqn:E; [|reflexivity]. exfalso. apply N. rewrite <- (rev_involutive a), E. reflexivity.
Qed.
Lemma last_off_cons o x a : last_off o (x :: a) = last_off (l_off x) a.
Proof. unfold last_off. cbn [rev]. destruct (rev a) eqn:E; cbn; reflexivity. Qed.

Lemma splits_rbind run T off R x o : splits run T off R -> T <> [] ->
  splits (rbind run (fun out => Ok (x :: out))) (x :: T) o R.
Proof.
  intros (ls' & F & S & E) N. exists ls'. split; [exact F|]. split; [exact S|]. rewrite E.
  rewrite last_off_cons, (last_off_ne (l_off x) off) by exact N.
  destruct (ppx _ ls'); reflexivity.
Qed.

Lemma raw_ne n s : s <> [] -> ne (raw (n, s)) = true.
Proof. destruct s; [contradiction|reflexivity]. Qed.

(* a text without a colon *)
Lemma split_text prev off q v t l tl R : text_ok q v -> ~ In ":"%char v ->
  l = raw (off, quoted q v ++ spaces t) -> filter ne tl = R -> rest_ok (bound prev off) R ->
  splits (pp_mapping ppx prev l tl) (typed off (DText q v t)) off R.
Proof.
  intros T C -> F B. unfold pp_mapping. cbn [raw l_data snd fst l_off].
  rewrite not_cited_none.
  2:{ intros I. apply in_app_or in I. destruct I as [I|I]; [|apply in_spaces in I; discriminate].
      revert I. apply text_no; [exact T|exact C|discriminate|discriminate]. }
  rewrite pp_scalar_one.
  2:{ cbn [l_off]. rewrite F. destruct prev; exact B. }
  exists (clear_empty tl). rewrite clear_empty_filter. split; [exact F|]. split; [apply clear_empty_starts|]. reflexivity.
Qed.

(* what one run over the lines of [d] does *)
Definition run_on (d : doc) (prev : option nat) (l : rline) (tl : list rline) : res (list rline) :=
  if is_dseq d then ppx prev (l :: tl) else pp_mapping ppx prev l tl.

Definition split_ok (d : doc) : Prop :=
  forall off prev l tl R, doc_ok false d ->
    filter ne (l :: tl) = map raw (doc_lines off d) ++ R -> ne l = true ->
    rest_ok (bound prev off) R -> (forall p, prev = Some p -> p < off) ->
    splits (run_on d prev l tl) (typed off d) off R.

(* the first line decides *)
Lemma run_is_ppx d off prev l tl R : doc_ok false d ->
  filter ne (l :: tl) = map raw (doc_lines off d) ++ R -> ne l = true ->
  ppx prev (l :: tl) = run_on d prev l tl.
Proof.
  intros D F N. unfold run_on. destruct (is_dseq d) eqn:S; [reflexivity|]. rewrite ppx_cons.
  replace (is_seq_start (l_data l)) with false; [reflexivity|]. symmetry. cbn [filter] in F. rewrite N in F.
  apply seq_start_false. destruct d as [q v t|es|es]; [|discriminate|].
  2: pose proof (ok_map_inv _ _ D) as (NE & HK & HC & HT).
  1: pose proof (ok_text_inv _ _ _ _ D) as (HX & HN).
  - cbn in F. inversion F. cbn. apply text_dash. assumption.
  - destruct es as [|[[k p] c] es]; [destruct (NE eq_refl)|]. assert (K : key_ok k) by (eapply HK; left; reflexivity).
    rewrite lines_map in F. cbn [flat_map] in F. destruct p as [g|tr i].
    + assert (C : doc_ok true c) by (eapply (HC k (SameLine g)); left; reflexivity).
      destruct (doc_head _ _ C 0) as (s & r & E & _). cbn [map_entry_lines] in F. rewrite E in F. inversion F. cbn. apply key_dash. exact K.
    + inversion F. cbn. apply key_dash. exact K.
Qed.

Lemma filter_head l tl x R : ne l = true -> filter ne (l :: tl) = x :: R -> l = x /\ filter ne tl = R.
Proof. intros N. cbn [filter]. rewrite N. intros E. inversion E. auto. Qed.

(* a child on its own lines *)
Lemma split_child c off o tl R : split_ok c -> doc_ok false c -> o < off ->
  filter ne tl = map raw (doc_lines off c) ++ R -> rest_ok o R ->
  exists l t, clear_empty tl = l :: t /\ l_off l = off /\ splits (ppx (Some o) (clear_empty tl)) (typed off c) off R.
Proof.
  intros S C L F B. destruct (doc_head _ _ C off) as (s & r & E & _).
  assert (F' : filter ne (clear_empty tl) = raw (off, s) :: map raw r ++ R) by (rewrite clear_empty_filter, F, E; reflexivity).
  destruct (starts_filter _ _ _ (clear_empty_starts tl) F') as (t & T & _ & N).
  exists (raw (off, s)), t. split; [exact T|]. split; [reflexivity|]. rewrite T in *.
  assert (G : filter ne (raw (off, s) :: t) = map raw (doc_lines off c) ++ R) by (rewrite F', E; reflexivity).
  rewrite (run_is_ppx c off _ _ _ R C G N). apply S; [exact C|exact G|exact N|exact B|]. intros p P. inversion P; subst. exact L.
Qed.

Lemma split_map_entry k p c off prev l tl R :
  key_ok k -> doc_ok (same_line p) c -> (same_line p = true -> exists q v t, c = DText q v t) ->
  split_ok c ->
  filter ne (l :: tl) = map raw (map_entry_lines off (k, p, c)) ++ R -> ne l = true -> rest_ok off R ->
  splits (pp_mapping ppx prev l tl) (map_entry off (k, p, c)) off R.
Proof.
  intros K C Tx Sc F N B. destruct p as [g|tr i].
  - destruct (Tx eq_refl) as (q & v & t & ->). inversion C; subst. cbn [map_entry_lines doc_lines map app] in F.
    apply filter_head in F; [|exact N]. destruct F as [-> F].
    unfold pp_mapping. cbn [raw fst snd l_data l_off]. rewrite key_token by exact K.
    replace (1 <? (if k_quoted k then 1 else 0)) with false by (destruct (k_quoted k); reflexivity).
    rewrite key_read by exact K. cbn [rbind]. cbv zeta.
    assert (NN : quoted q v ++ spaces t <> []).
    { intros E. apply app_eq_nil in E. destruct E as [E _]. revert E. apply text_ne. assumption. }
    destruct (value_at k g (quoted q v ++ spaces t) NN) as [V1 V2].
    { rewrite hd_app by (apply text_ne; assumption). apply text_hd. assumption. }
    rewrite V1, V2. rewrite seq_start_false by (apply text_dash; assumption).
    rewrite text_block by assumption. cbn [rbind]. rewrite pp_scalar_one by (cbn; rewrite clear_empty_filter, F; exact B).
    cbn [l_off l_data map_entry].
    apply splits_rbind with (off := List.length (key_str k) + 1 + g + off); [|discriminate].
    exists (clear_empty (clear_empty tl)). rewrite !clear_empty_filter. split; [exact F|]. split; [apply clear_empty_starts|]. reflexivity.
  - cbn [map_entry_lines map app] in F. apply filter_head in F; [|exact N]. destruct F as [-> F].
    unfold pp_mapping. cbn [raw fst snd l_data l_off]. rewrite key_token by exact K.
    replace (1 <? (if k_quoted k then 1 else 0)) with false by (destruct (k_quoted k); reflexivity).
    rewrite key_read by exact K. cbn [rbind]. cbv zeta. rewrite value_none. cbn [is_seq_start].
    cbn [same_line] in C. destruct (split_child c (off + S i) off tl R Sc C ltac:(lia) F B) as (l2 & t2 & E & O & Sp).
    rewrite E in *. rewrite O. replace (off <? off + S i) with true by (symmetry; apply Nat.ltb_lt; lia).
    cbn [map_entry]. eapply splits_rbind; [exact Sp|]. eapply typed_ne. exact C.
Qed.

Lemma split_seq_entry p c off prev l tl R :
  doc_ok false c -> (same_line p = true -> is_dseq c = false) -> split_ok c ->
  filter ne (l :: tl) = map raw (seq_entry_lines off (p, c)) ++ R -> ne l = true -> rest_ok off R ->
  splits (ppx prev (l :: tl)) (seq_entry off (p, c)) off R.
Proof.
  intros C Q Sc F N B. rewrite ppx_cons. destruct p as [g|tr i].
  - destruct (doc_head _ _ C (off + 2 + g)) as (s & r & E & SN & SB). cbn [seq_entry_lines] in F. rewrite E in F.
    cbn [map app] in F. apply filter_head in F; [|exact N]. destruct F as [-> F]. cbn [raw fst snd l_data l_off].
    rewrite dash_seq. cbv zeta. destruct (dash_at g s SN SB) as [V1 V2]. rewrite V1, V2. cbn [seq_entry].
    eapply splits_rbind; [|eapply typed_ne; exact C].
    replace (off + (2 + g)) with (off + 2 + g) by lia.
    specialize (Sc (off + 2 + g) (Some off) (raw (off + 2 + g, s)) (clear_empty tl) R C). unfold run_on in Sc. rewrite (Q eq_refl) in Sc.
    apply Sc.
    + cbn [filter]. rewrite raw_ne by exact SN. rewrite clear_empty_filter, F, E. reflexivity.
    + apply raw_ne. exact SN.
    + exact B.
    + intros x X. inversion X; subst. lia.
  - cbn [seq_entry_lines map app] in F. apply filter_head in F; [|exact N]. destruct F as [-> F]. cbn [raw fst snd l_data l_off].
    rewrite dash_seq0. cbv zeta. rewrite dash_none. cbn [seq_entry].
    destruct (split_child c (off + S i) off tl R Sc C ltac:(lia) F B) as (l2 & t2 & _ & _ & Sp).
    eapply splits_rbind; [exact Sp|]. eapply typed_ne. exact C.
Qed.

Lemma splits_then run T off R T2 prevrun :
  splits run T off R -> T2 <> [] ->
  (forall ls', filter ne ls' = R -> starts_ne ls' -> splits (ppx (Some (last_off off T)) ls') T2 off prevrun) ->
  splits run (T ++ T2) off prevrun.
Proof.
  intros (ls' & F & St & E) N H. destruct (H ls' F St) as (ls2 & F2 & S2 & E2). exists ls2. split; [exact F2|]. split; [exact S2|].
  rewrite E, E2, last_off_app by exact N. destruct (ppx _ ls2); [|reflexivity]. cbn. rewrite app_assoc. reflexivity.
Qed.

Lemma map_entry_ne off e : map_entry off e <> []. Proof. destruct e as [[k [g|t i]] c]; discriminate. Qed.
Lemma seq_entry_ne off e : seq_entry off e <> []. Proof. destruct e as [[g|t i] c]; discriminate. Qed.
Lemma last_bound T off : T <> [] -> (forall x, In x T -> off <= l_off x) -> off <= last_off off T.
Proof.
  intros N H. unfold last_off. destruct (rev T) as [|x r] eqn:E; [lia|]. apply H. apply in_rev. rewrite E. left. reflexivity.
Qed.

Lemma split_seq es : es <> [] ->
  (forall p c, In (p, c) es -> doc_ok false c /\ (same_line p = true -> is_dseq c = false) /\ split_ok c) ->
  forall off prev l tl R, filter ne (l :: tl) = map raw (doc_lines off (DSeq es)) ++ R -> ne l = true -> rest_ok off R ->
  splits (ppx prev (l :: tl)) (typed off (DSeq es)) off R.
Proof.
  induction es as [|[p c] es IH]; intros NE H off prev l tl R F N B; [contradiction|].
  destruct (H p c (or_introl eq_refl)) as (C & Q & S). rewrite typed_seq. cbn [flat_map]. rewrite lines_seq in F. cbn [flat_map] in F.
  destruct es as [|e2 es].
  - cbn [flat_map] in *. rewrite app_nil_r in *. eapply split_seq_entry; eassumption.
  - rewrite map_app, <- app_assoc in F. rewrite <- lines_seq in F.
    assert (H2 : forall p c, In (p, c) (e2 :: es) -> doc_ok false c /\ (same_line p = true -> is_dseq c = false) /\ split_ok c).
    { intros p' c' I. apply H. right. exact I. }
    assert (HD : exists s r, doc_lines off (DSeq (e2 :: es)) = (off, s) :: r).
    { destruct e2 as [[g|t i] c2]; rewrite lines_seq; cbn [flat_map seq_entry_lines]; [|eexists; eexists; reflexivity].
      destruct (H2 _ _ (or_introl eq_refl)) as (C2 & _). destruct (doc_head _ _ C2 (off + 2 + g)) as (s & r & E & _). rewrite E. eexists; eexists; reflexivity. }
    destruct HD as (s & r & HD).
    eapply splits_then.
    + eapply split_seq_entry; [exact C|exact Q|exact S|exact F|exact N|]. rewrite HD. cbn. lia.
    + destruct (seq_entry off e2) eqn:E; [destruct (seq_entry_ne _ _ E)|]. cbn [flat_map]. rewrite E. discriminate.
    + intros ls' F' St. pose proof F' as F2. rewrite HD in F2. destruct (starts_filter _ _ _ St F2) as (t & -> & _ & N').
      rewrite <- typed_seq. apply IH; [discriminate|exact H2|exact F'|exact N'|exact B].
Qed.

Lemma split_map es : es <> [] ->
  (forall k p c, In (k, p, c) es -> key_ok k /\ doc_ok (same_line p) c /\ (same_line p = true -> exists q v t, c = DText q v t) /\ split_ok c) ->
  forall off prev l tl R, filter ne (l :: tl) = map raw (doc_lines off (DMap es)) ++ R -> ne l = true -> rest_ok off R ->
  splits (pp_mapping ppx prev l tl) (typed off (DMap es)) off R.
Proof.
  induction es as [|[[k p] c] es IH]; intros NE H off prev l tl R F N B; [contradiction|].
  destruct (H k p c (or_introl eq_refl)) as (K & C & Q & S). rewrite typed_map. cbn [flat_map]. rewrite lines_map in F. cbn [flat_map] in F.
  destruct es as [|e2 es].
  - cbn [flat_map] in *. rewrite app_nil_r in *. eapply split_map_entry; eassumption.
  - rewrite map_app, <- app_assoc in F. rewrite <- lines_map in F.
    assert (H2 : forall k p c, In (k, p, c) (e2 :: es) -> key_ok k /\ doc_ok (same_line p) c /\ (same_line p = true -> exists q v t, c = DText q v t) /\ split_ok c).
    { intros k' p' c' I. apply H. right. exact I. }
    assert (DOK : doc_ok false (DMap (e2 :: es))).
    { constructor; [discriminate| | |]; intros k' p' c' I; destruct (H2 _ _ _ I) as (? & ? & ? & ?); assumption. }
    destruct (doc_head _ _ DOK off) as (s & r & HD & _).
    eapply splits_then.
    + eapply split_map_entry; [exact K|exact C|exact Q|exact S|exact F|exact N|]. rewrite HD. cbn. lia.
    + destruct (map_entry off e2) eqn:E; [destruct (map_entry_ne _ _ E)|]. cbn [flat_map]. rewrite E. discriminate.
    + intros ls' F' St. pose proof F' as F2. rewrite HD in F2. destruct (starts_filter _ _ _ St F2) as (t & -> & _ & N').
      rewrite (run_is_ppx _ _ _ _ _ _ DOK F' N'). unfold run_on. cbn [is_dseq].
      rewrite <- typed_map. apply IH; [discriminate|exact H2|exact F'|exact N'|exact B].
Qed.

Lemma split_doc d : split_ok d.
Proof.
  induction d as [q v t|es IH|es IH] using doc_ind'; intros off prev l tl R H F N B L; unfold run_on; cbn [is_dseq].
  3: pose proof (ok_map_inv _ _ H) as (NE & HK & HC & HT).
  2: pose proof (ok_seq_inv _ _ H) as (NE & HC & HQ).
  1: pose proof (ok_text_inv _ _ _ _ H) as (HX & HN).
  - cbn in F. rewrite N in F. inversion F; subst. eapply split_text; [assumption|auto|reflexivity|reflexivity|exact B].
  - apply split_seq; [assumption| |exact F|exact N|].
    + intros p c I. split; [eauto|]. split; [eauto|]. eapply IH. exact I.
    + destruct R; [exact I|]. cbn in *. destruct prev; cbn in B; [specialize (L _ eq_refl); lia|exact B].
  - apply split_map; [assumption| |exact F|exact N|].
    + intros k p c I. split; [eauto|]. split; [eauto|]. split; [eauto|]. eapply IH. exact I.
    + destruct R; [exact I|]. cbn in *. destruct prev; cbn in B; [specialize (L _ eq_refl); lia|exact B].
Qed.

Lemma pp_doc d ls : doc_ok false d -> starts_ne ls -> filter ne ls = map raw (doc_lines 0 d) ->
  pp (List.length ls) None ls = Ok (typed 0 d).
Proof.
  intros D S F. destruct (doc_head _ _ D 0) as (s & r & E & _).
  assert (F' : filter ne ls = raw (0, s) :: map raw r) by (rewrite F, E; reflexivity).
  destruct (starts_filter _ _ _ S F') as (t & -> & _ & N).
  assert (G : filter ne (raw (0, s) :: t) = map raw (doc_lines 0 d) ++ []) by (rewrite app_nil_r; exact F).
  change (pp _ None (raw (0, s) :: t)) with (ppx None (raw (0, s) :: t)).
  rewrite (run_is_ppx _ _ _ _ _ _ D G N).
  destruct (split_doc d 0 None (raw (0, s)) t [] D G N I ltac:(discriminate)) as (ls' & F2 & S2 & E2).
  rewrite E2, (starts_filter_nil _ S2 F2). cbn. rewrite app_nil_r. reflexivity.
Qed.
