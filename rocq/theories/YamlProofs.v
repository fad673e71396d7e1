(* Reading lines: characters, quotes, comments, offsets. *)
From Coq Require Import List Ascii String Arith Bool Lia.
From Verif Require Import YamlModel YamlSpec.
Import ListNotations.
Local Open Scope nat_scope.

(* ---------- strings ---------- *)

Lemma str_eqb_eq a b : str_eqb a b = true <-> a = b.
Proof.
  revert b. induction a as [|x a IH]; intros [|y b]; cbn; split; intros H; try discriminate; try reflexivity.
  - apply andb_true_iff in H. destruct H as [H1 H2]. apply Ascii.eqb_eq in H1. apply IH in H2. congruence.
  - inversion H; subst. rewrite Ascii.eqb_refl. cbn. apply IH. reflexivity.
Qed.
Lemma str_eqb_refl a : str_eqb a a = true. Proof. apply str_eqb_eq. reflexivity. Qed.
Lemma str_eqb_neq a b : a <> b -> str_eqb a b = false.
Proof. intros H. destruct (str_eqb a b) eqn:E; [|reflexivity]. apply str_eqb_eq in E. contradiction. Qed.

Lemma find_if_none p s : (forall c, In c s -> p c = false) -> find_if p s = None.
Proof. induction s as [|c s IH]; intros H; cbn; [reflexivity|]. rewrite (H c (or_introl eq_refl)), IH; [reflexivity|]. intros d D. apply H. right. exact D. Qed.
Lemma find_if_app p a b : (forall c, In c a -> p c = false) ->
  find_if p (a ++ b) = option_map (fun k => List.length a + k) (find_if p b).
Proof.
  induction a as [|c a IH]; intros H; cbn [app find_if List.length].
  - destruct (find_if p b); reflexivity.
  - rewrite (H c (or_introl eq_refl)), IH by (intros d D; apply H; right; exact D).
    destruct (find_if p b); reflexivity.
Qed.
Lemma find_if_at p a c b : (forall d, In d a -> p d = false) -> p c = true -> find_if p (a ++ c :: b) = Some (List.length a).
Proof. intros H C. rewrite find_if_app by exact H. cbn. rewrite C. cbn. f_equal. lia. Qed.

Lemma skipn_len {A} (a b : list A) : skipn (List.length a) (a ++ b) = b.
Proof. induction a; cbn; [reflexivity|assumption]. Qed.
Lemma firstn_len {A} (a b : list A) : firstn (List.length a) (a ++ b) = a.
Proof. induction a; cbn; [reflexivity|]. f_equal. assumption. Qed.

Lemma find_at_app p a b : find_at p (a ++ b) (List.length a) = option_map (fun k => List.length a + k) (find_if p b).
Proof. unfold find_at. rewrite skipn_len. reflexivity. Qed.

Lemma find_last_none p s : (forall c, In c s -> p c = false) -> find_last p s = None.
Proof. induction s as [|c s IH]; intros H; cbn; [reflexivity|]. rewrite IH by (intros d D; apply H; right; exact D). rewrite (H c (or_introl eq_refl)). reflexivity. Qed.
Lemma find_last_app p a b : (forall c, In c b -> p c = false) -> find_last p (a ++ b) = find_last p a.
Proof.
  intros H. induction a as [|c a IH]; cbn [app find_last].
  - rewrite find_last_none by exact H. reflexivity.
  - rewrite IH. reflexivity.
Qed.
Lemma find_last_end p s c : p c = true -> find_last p (s ++ [c]) = Some (List.length s).
Proof. intros H. induction s as [|d s IH]; cbn [app find_last List.length]; [rewrite H; reflexivity|]. rewrite IH. reflexivity. Qed.

Lemma last_split {A} (s : list A) d : s <> [] -> exists a, s = a ++ [List.last s d].
Proof. intros H. exists (removelast s). apply app_removelast_last. exact H. Qed.

Lemma is_ws_blank c : is_ws c = true <-> blank c.
Proof.
  unfold is_ws, blank. rewrite orb_true_iff, !Ascii.eqb_eq. reflexivity.
Qed.
Lemma not_ws_blank c : not_ws c = true <-> ~ blank c.
Proof. unfold not_ws. rewrite negb_true_iff, <- is_ws_blank. destruct (is_ws c); intuition congruence. Qed.
Lemma not_ws_sp : not_ws c_sp = false. Proof. reflexivity. Qed.
Lemma in_spaces c n : In c (spaces n) -> c = c_sp.
Proof. intros H. eapply repeat_spec, H. Qed.
Lemma spaces_ws n c : In c (spaces n) -> not_ws c = false.
Proof. intros H. rewrite (in_spaces _ _ H). reflexivity. Qed.
Lemma spaces_len n : List.length (spaces n) = n. Proof. apply repeat_length. Qed.

Lemma valid_printable c : printable c -> valid_char c = true.
Proof.
  intros [->|[H1 H2]]; [reflexivity|]. unfold valid_char. apply orb_true_iff. right.
  apply andb_true_iff. split; apply Nat.leb_le; assumption.
Qed.
Lemma printable_cr : ~ printable c_cr.
Proof. intros [H|[H1 H2]]; [discriminate H|]. vm_compute in H1. lia. Qed.
Lemma printable_nl : ~ printable c_nl.
Proof. intros [H|[H1 H2]]; [discriminate H|]. vm_compute in H1. lia. Qed.
Lemma printable_sp : printable c_sp.
Proof. right. vm_compute. lia. Qed.

(* ---------- quotes ---------- *)

Fixpoint oafter (prev : option ascii) (s : str) (i : nat) (open : option nat) : option nat :=
  match s with
  | [] => open
  | c :: r =>
      let escaped := match prev with Some b => Ascii.eqb b c_bs | None => false end in
      if Ascii.eqb c c_dq && negb escaped then
        match open with
        | None => oafter (Some c) r (S i) (Some i)
        | Some a => oafter (Some c) r (S i) None
        end
      else oafter (Some c) r (S i) open
  end.
Definition plast (prev : option ascii) (s : str) : option ascii :=
  match s with [] => prev | _ => Some (List.last s c_sp) end.

Lemma plast_cons p c s : plast (Some c) s = plast p (c :: s).
Proof. destruct s; reflexivity. Qed.

Lemma quotes_app p a b i o :
  quotes_from p (a ++ b) i o = quotes_from p a i o ++ quotes_from (plast p a) b (i + List.length a) (oafter p a i o).
Proof.
  revert p i o. induction a as [|c a IH]; intros p i o; cbn [app quotes_from oafter List.length].
  - cbn. rewrite Nat.add_0_r. reflexivity.
  - rewrite <- (plast_cons p c a). replace (i + S (List.length a)) with (S i + List.length a) by lia.
    destruct (Ascii.eqb c c_dq && _); [destruct o as [k|]|]; rewrite IH; reflexivity.
Qed.
Lemma oafter_app p a b i o : oafter p (a ++ b) i o = oafter (plast p a) b (i + List.length a) (oafter p a i o).
Proof.
  revert p i o. induction a as [|c a IH]; intros p i o; cbn [app oafter List.length].
  - cbn. rewrite Nat.add_0_r. reflexivity.
  - rewrite <- (plast_cons p c a). replace (i + S (List.length a)) with (S i + List.length a) by lia.
    destruct (Ascii.eqb c c_dq && _); [destruct o as [k|]|]; rewrite IH; reflexivity.
Qed.
Lemma plast_app p a b : b <> [] -> plast p (a ++ b) = plast None b.
Proof.
  intros H. destruct (last_split b c_sp H) as [b' E]. rewrite E, app_assoc.
  unfold plast. destruct ((a ++ b') ++ [List.last b c_sp]) eqn:F; [destruct (a ++ b'); discriminate|].
  rewrite <- F, last_last. destruct (b' ++ _) eqn:G; [destruct b'; discriminate|]. rewrite <- G, last_last. reflexivity.
Qed.

Lemma quotes_range p s i o a b : In (a, b) (quotes_from p s i o) ->
  b < i + List.length s /\ i <= b /\ (o = Some a \/ i <= a) /\ ((forall k, o = Some k -> k < i) -> a < b).
Proof.
  revert p i o. induction s as [|c s IH]; intros p i o H; [contradiction|]. cbn [quotes_from List.length] in *.
  destruct (Ascii.eqb c c_dq && _).
  - destruct o as [k|].
    + destruct H as [H|H].
      * inversion H; subst. split; [lia|]. split; [lia|]. split; [left; reflexivity|]. intros K. apply K. reflexivity.
      * apply IH in H. destruct H as (H1 & H2 & H3 & H4). split; [lia|]. split; [lia|]. split; [right; destruct H3; [discriminate|lia]|].
        intros _. apply H4. discriminate.
    + apply IH in H. destruct H as (H1 & H2 & H3 & H4). split; [lia|]. split; [lia|].
      split; [right; destruct H3 as [H3|H3]; [inversion H3; lia|lia]|].
      intros _. apply H4. intros k K. inversion K. lia.
  - apply IH in H. destruct H as (H1 & H2 & H3 & H4). split; [lia|]. split; [lia|].
    split; [destruct H3; [left; assumption|right; lia]|]. intros K. apply H4. intros k E. specialize (K k E). lia.
Qed.

Lemma no_dq_open p s i o : ~ In c_dq s -> oafter p s i o = o.
Proof.
  revert p i. induction s as [|c s IH]; intros p i H; [reflexivity|]. cbn [oafter].
  replace (Ascii.eqb c c_dq) with false; [cbn; apply IH; intros K; apply H; right; exact K|].
  symmetry. apply Ascii.eqb_neq. intros E. apply H. left. congruence.
Qed.
Lemma no_dq_quotes p s i o : ~ In c_dq s -> quotes_from p s i o = [].
Proof.
  revert p i. induction s as [|c s IH]; intros p i H; [reflexivity|]. cbn [quotes_from].
  replace (Ascii.eqb c c_dq) with false; [cbn; apply IH; intros K; apply H; right; exact K|].
  symmetry. apply Ascii.eqb_neq. intros E. apply H. left. congruence.
Qed.

(* A part after which no quote is open, and not ending in a backslash unless
   nothing precedes. *)
Definition bal (s : str) : Prop :=
  forall p i, p <> Some c_bs -> oafter p s i None = None.

Lemma bal_no_dq s : ~ In c_dq s -> bal s.
Proof. intros H p i _. apply no_dq_open. exact H. Qed.

(* a double-quoted text *)
Definition closed (v : str) : Prop := ~ In c_dq v /\ plast (Some c_dq) v <> Some c_bs.
Lemma dq_quotes p v i : p <> Some c_bs -> closed v ->
  quotes_from p (c_dq :: v ++ [c_dq]) i None = [(i, i + S (List.length v))] /\
  oafter p (c_dq :: v ++ [c_dq]) i None = None.
Proof.
  intros P [D L]. cbn [quotes_from oafter].
  assert (E : match p with Some b => Ascii.eqb b c_bs | None => false end = false).
  { destruct p as [b|]; [|reflexivity]. apply Ascii.eqb_neq. congruence. }
  rewrite E. cbn [Ascii.eqb andb negb].
  replace (Ascii.eqb c_dq c_dq && true) with true by reflexivity.
  rewrite quotes_app, oafter_app, (no_dq_quotes _ v), (no_dq_open _ v) by exact D. cbn [app quotes_from oafter].
  assert (F : match plast (Some c_dq) v with Some b => Ascii.eqb b c_bs | None => false end = false).
  { destruct (plast (Some c_dq) v) as [b|]; [|reflexivity]. apply Ascii.eqb_neq. congruence. }
  rewrite F. replace (Ascii.eqb c_dq c_dq && negb false) with true by reflexivity.
  split; [|reflexivity]. f_equal. f_equal. lia.
Qed.
Lemma bal_dq v : closed v -> bal (c_dq :: v ++ [c_dq]).
Proof. intros H p i P. apply dq_quotes; assumption. Qed.
Lemma bal_app a b : bal a -> bal b -> (forall p, p <> Some c_bs -> plast p a <> Some c_bs) -> bal (a ++ b).
Proof. intros A B L p i P. rewrite oafter_app, A by exact P. apply B. apply L. exact P. Qed.

(* ---------- finding a token outside quotes ---------- *)

Lemma loop_skip inp t Q1 Q2 pos n : (forall a b, In (a, b) Q1 -> a < b /\ b < pos) ->
  not_cited_loop inp t (Q1 ++ Q2) pos n = not_cited_loop inp t Q2 pos (n + List.length Q1).
Proof.
  revert n. induction Q1 as [|[a b] Q1 IH]; intros n H; cbn [app not_cited_loop List.length]; [f_equal; lia|].
  destruct (H a b (or_introl eq_refl)) as [H1 H2].
  replace (pos <? a) with false by (symmetry; apply Nat.ltb_ge; lia).
  replace (pos <=? b) with false by (symmetry; apply Nat.leb_gt; lia).
  rewrite IH by (intros a' b' I; apply H; right; exact I). f_equal. lia.
Qed.
Lemma loop_stop inp t Q pos n : (forall a b, In (a, b) Q -> pos < a) -> not_cited_loop inp t Q pos n = (Some pos, n).
Proof.
  intros H. destruct Q as [|[a b] Q]; [reflexivity|]. cbn [not_cited_loop].
  replace (pos <? a) with true; [reflexivity|]. symmetry. apply Nat.ltb_lt. apply (H a b). left. reflexivity.
Qed.

(* The token right after a part without the token and without an open quote. *)
Lemma not_cited_after a t b : ~ In t a -> oafter None a 0 None = None -> t <> c_dq ->
  find_not_cited (a ++ t :: b) t = (Some (List.length a), List.length (quotes a)).
Proof.
  intros T O D. unfold find_not_cited.
  rewrite find_if_at; [|intros c C; apply Ascii.eqb_neq; congruence|apply Ascii.eqb_refl].
  unfold quotes at 1. rewrite quotes_app, O. rewrite loop_skip.
  - rewrite loop_stop; [reflexivity|]. cbn [quotes_from].
    replace (Ascii.eqb t c_dq) with false by (symmetry; apply Ascii.eqb_neq; exact D). cbn [andb].
    intros x y I. apply quotes_range in I. destruct I as (_ & _ & [I|I] & _); [discriminate|lia].
  - intros x y I. apply quotes_range in I. destruct I as (I1 & _ & _ & I4). split; [apply I4; discriminate|lia].
Qed.
Lemma not_cited_none s t : ~ In t s -> find_not_cited s t = (None, 0).
Proof. intros H. unfold find_not_cited. rewrite find_if_none; [reflexivity|]. intros c C. apply Ascii.eqb_neq. congruence. Qed.

(* ---------- lines of a text ---------- *)

Lemma lines_of_nonempty s : lines_of s <> [].
Proof. destruct s as [|c s]; cbn; [discriminate|]. destruct (Ascii.eqb c c_nl); [discriminate|]. destruct (lines_of s); discriminate. Qed.
Lemma lines_of_one l : ~ In c_nl l -> lines_of l = [l].
Proof.
  induction l as [|c l IH]; intros H; [reflexivity|]. cbn.
  replace (Ascii.eqb c c_nl) with false by (symmetry; apply Ascii.eqb_neq; intros E; apply H; left; congruence).
  rewrite IH by (intros K; apply H; right; exact K). reflexivity.
Qed.
Lemma lines_of_cons l r : ~ In c_nl l -> lines_of (l ++ [c_nl] ++ r) = l :: lines_of r.
Proof.
  induction l as [|c l IH]; intros H; [reflexivity|]. cbn [app lines_of].
  replace (Ascii.eqb c c_nl) with false by (symmetry; apply Ascii.eqb_neq; intros E; apply H; left; congruence).
  cbn [app] in IH. rewrite IH by (intros K; apply H; right; exact K). reflexivity.
Qed.
Lemma lines_of_join ls : ls <> [] -> (forall l, In l ls -> ~ In c_nl l) -> lines_of (join_lines ls) = ls.
Proof.
  induction ls as [|l ls IH]; intros N H; [contradiction|]. destruct ls as [|m ls].
  - cbn. apply lines_of_one. apply H. left. reflexivity.
  - change (join_lines (l :: m :: ls)) with (l ++ [c_nl] ++ join_lines (m :: ls)).
    rewrite lines_of_cons by (apply H; left; reflexivity). rewrite IH; [reflexivity|discriminate|]. intros k K. apply H. right. exact K.
Qed.

(* ---------- reading one line ---------- *)

Definition line_ok (off : nat) (d : str) : Prop :=
  d <> [] /\ Forall printable d /\ ~ blank (hd c_sp d) /\ ~ In "#"%char d /\ bal d /\
  (off = 0 -> d <> lit "---" /\ d <> lit "...").

Lemma strip_comment_app a c : ~ In "#"%char a -> oafter None a 0 None = None -> strip_comment (a ++ lit "#" ++ c) = a.
Proof.
  intros H O. unfold strip_comment. change (a ++ lit "#" ++ c) with (a ++ "#"%char :: c).
  rewrite not_cited_after by (try assumption; discriminate). cbn [fst]. apply firstn_len.
Qed.
Lemma strip_comment_none a : ~ In "#"%char a -> strip_comment a = a.
Proof. intros H. unfold strip_comment. rewrite not_cited_none by exact H. reflexivity. Qed.

Lemma strip_cr_none l : ~ In c_cr l -> strip_cr l = l.
Proof.
  intros H. unfold strip_cr. destruct (rev l) as [|c r] eqn:E; [reflexivity|].
  replace (Ascii.eqb c c_cr) with false; [reflexivity|]. symmetry. apply Ascii.eqb_neq. intros ->. apply H.
  apply in_rev. rewrite E. left. reflexivity.
Qed.
Lemma strip_cr_app l : strip_cr (l ++ [c_cr]) = l.
Proof. unfold strip_cr. rewrite rev_app_distr. cbn. apply rev_involutive. Qed.

Lemma read_line_data off d cr : d <> [] -> Forall printable d -> ~ blank (hd c_sp d) ->
  read_line (spaces off ++ d ++ cr_str cr) = Ok (d, off).
Proof.
  intros N P B. unfold read_line.
  assert (E : strip_cr (spaces off ++ d ++ cr_str cr) = spaces off ++ d).
  { assert (K : ~ In c_cr (spaces off ++ d)).
    { intros I. apply in_app_or in I. destruct I as [I|I]; [apply in_spaces in I; discriminate|].
      rewrite Forall_forall in P. exact (printable_cr (P _ I)). }
    destruct cr; cbn [cr_str].
    - rewrite app_assoc. apply strip_cr_app.
    - rewrite app_nil_r. apply strip_cr_none. exact K. }
  rewrite E. cbv zeta.
  replace (forallb valid_char (spaces off ++ d)) with true.
  2:{ symmetry. apply forallb_forall. intros c C. apply valid_printable. apply in_app_or in C. destruct C as [C|C].
      - rewrite (in_spaces _ _ C). exact printable_sp.
      - rewrite Forall_forall in P. apply P. exact C. }
  destruct d as [|c d]; [contradiction|]. cbn [hd] in B.
  rewrite find_if_at; [|apply spaces_ws|apply not_ws_blank; exact B].
  rewrite spaces_len.
  assert (S : skipn off (spaces off ++ c :: d) = c :: d) by (rewrite <- (spaces_len off) at 1; apply skipn_len).
  destruct (find_if (Ascii.eqb c_tab) (spaces off ++ c :: d)) as [t|] eqn:T; [|rewrite S; reflexivity].
  replace (t <? off) with false; [rewrite S; reflexivity|]. symmetry. apply Nat.ltb_ge.
  rewrite find_if_app in T by (intros x X; rewrite (in_spaces _ _ X); reflexivity).
  destruct (find_if (Ascii.eqb c_tab) (c :: d)); [|discriminate]. cbn in T. inversion T. rewrite spaces_len. lia.
Qed.
Lemma read_line_blank n cr : read_line (spaces n ++ cr_str cr) = Ok ([], 0).
Proof.
  unfold read_line.
  assert (E : strip_cr (spaces n ++ cr_str cr) = spaces n).
  { destruct cr; cbn [cr_str]; [apply strip_cr_app|]. rewrite app_nil_r. apply strip_cr_none. intros I. apply in_spaces in I. discriminate. }
  rewrite E. cbv zeta. replace (forallb valid_char (spaces n)) with true.
  - rewrite find_if_none by apply spaces_ws. reflexivity.
  - symmetry. apply forallb_forall. intros c C. rewrite (in_spaces _ _ C). reflexivity.
Qed.

Lemma spaces_no_dq n : ~ In c_dq (spaces n). Proof. intros I. apply in_spaces in I. discriminate. Qed.
Lemma plast_spaces p n : plast p (spaces (S n)) = Some c_sp.
Proof. change (spaces (S n)) with (c_sp :: repeat c_sp n). rewrite repeat_cons. rewrite plast_app by discriminate. reflexivity. Qed.
Lemma bal_indent n d : bal d -> oafter None (spaces n ++ d) 0 None = None.
Proof.
  intros B. rewrite oafter_app, (no_dq_open _ (spaces n)) by apply spaces_no_dq. apply B.
  destruct n as [|n]; [discriminate|]. rewrite plast_spaces. discriminate.
Qed.

(* the line once its comment is gone *)
Lemma src_stripped_line off d c cr : line_ok off d ->
  exists cr', strip_comment (spaces off ++ d ++ comment_str c ++ cr_str cr) = spaces off ++ d ++ cr_str cr'.
Proof.
  intros (N & P & B & H & L & M).
  assert (NH : ~ In "#"%char (spaces off ++ d)).
  { intros I. apply in_app_or in I. destruct I as [I|I]; [apply in_spaces in I; discriminate|contradiction]. }
  destruct c as [t|]; cbn [comment_str].
  - exists false. cbn [cr_str]. rewrite app_nil_r.
    replace (spaces off ++ d ++ (lit "#" ++ t) ++ cr_str cr) with ((spaces off ++ d) ++ lit "#" ++ (t ++ cr_str cr)) by (rewrite <- !app_assoc; reflexivity).
    apply strip_comment_app; [exact NH|]. apply bal_indent. exact L.
  - exists cr. cbn [app]. apply strip_comment_none. rewrite app_assoc. intros I. apply in_app_or in I.
    destruct I as [I|I]; [contradiction|]. destruct cr; [destruct I as [I|[]]; discriminate I|destruct I].
Qed.
Lemma src_stripped_blank n c cr :
  exists cr', strip_comment (spaces n ++ comment_str c ++ cr_str cr) = spaces n ++ cr_str cr'.
Proof.
  destruct c as [t|]; cbn [comment_str].
  - exists false. cbn [cr_str]. rewrite app_nil_r.
    replace (spaces n ++ (lit "#" ++ t) ++ cr_str cr) with (spaces n ++ lit "#" ++ (t ++ cr_str cr)) by (rewrite <- !app_assoc; reflexivity).
    apply strip_comment_app; [intros I; apply in_spaces in I; discriminate|]. apply no_dq_open. apply spaces_no_dq.
  - exists cr. cbn [app]. apply strip_comment_none. intros I. apply in_app_or in I.
    destruct I as [I|I]; [apply in_spaces in I; discriminate|]. destruct cr; [destruct I as [I|[]]; discriminate I|destruct I].
Qed.

Lemma not_marker off d cr m : line_ok off d -> m = lit "---" \/ m = lit "..." -> str_eqb (spaces off ++ d ++ cr_str cr) m = false.
Proof.
  intros (N & P & B & H & L & M) Hm. apply str_eqb_neq. intros E.
  assert (C : ~ In c_cr m) by (destruct Hm as [->| ->]; cbn; intuition discriminate).
  destruct cr; cbn [cr_str] in E.
  - apply C. rewrite <- E. apply in_or_app. right. apply in_or_app. right. left. reflexivity.
  - rewrite app_nil_r in E. destruct off as [|off].
    + cbn in E. destruct (M eq_refl) as [M1 M2]. destruct Hm as [->| ->]; contradiction.
    + cbn in E. destruct Hm as [->| ->]; discriminate E.
Qed.
Lemma not_marker_blank n cr m : m = lit "---" \/ m = lit "..." -> str_eqb (spaces n ++ cr_str cr) m = false.
Proof.
  intros Hm. apply str_eqb_neq. intros E. destruct n as [|n]; [destruct cr|]; destruct Hm as [->| ->]; discriminate E.
Qed.

Definition ne (l : rline) : bool := negb (is_empty (l_data l)).
Definition raw (p : nat * str) : rline := mkL (snd p) (fst p) LNone.

Definition starts_ne (ls : list rline) : Prop := match ls with [] => True | l :: _ => ne l = true end.

Lemma read_src ls ds ff acc :
  (forall n s, In (n, s) (src_doc ls) -> line_ok n s) ->
  exists out, read_lines (map src_str ls) ds ff acc = Ok (acc ++ out) /\
    filter ne out = map raw (src_doc ls) /\ (ff = false -> starts_ne out).
Proof.
  revert ds ff acc. induction ls as [|l ls IH]; intros ds ff acc H.
  - exists []. cbn. rewrite app_nil_r. repeat split.
  - cbn [map read_lines]. destruct l as [n s c cr|n c cr]; cbn [src_str src_doc] in *.
    + assert (K : line_ok n s) by (apply H; left; reflexivity).
      destruct (src_stripped_line n s c cr K) as [cr' E]. rewrite E.
      rewrite !(not_marker n s cr' _ K) by auto. rewrite andb_false_r.
      pose proof K as (N & P & B & _). rewrite read_line_data by assumption. cbn [rbind].
      destruct s as [|x s]; [contradiction|]. rewrite andb_false_r.
      destruct (IH ds true (acc ++ [mkL (x :: s) n LNone])) as (out & O1 & O2 & O3); [intros n' s' I; apply H; right; exact I|].
      exists (mkL (x :: s) n LNone :: out). rewrite O1, <- app_assoc. split; [reflexivity|]. cbn [filter ne is_empty l_data negb map raw fst snd].
      split; [rewrite O2; reflexivity|]. intros _. reflexivity.
    + destruct (src_stripped_blank n c cr) as [cr' E]. rewrite E.
      rewrite !(not_marker_blank n cr') by auto. rewrite andb_false_r.
      rewrite read_line_blank. cbn [rbind]. rewrite andb_true_r. destruct ff; cbn [negb].
      * destruct (IH ds true (acc ++ [mkL [] 0 LNone])) as (out & O1 & O2 & O3); [exact H|].
        exists (mkL [] 0 LNone :: out). rewrite O1, <- app_assoc. split; [reflexivity|]. split; [exact O2|discriminate].
      * destruct (IH ds false acc) as (out & O1 & O2 & O3); [exact H|]. exists out. auto.
Qed.

Lemma src_no_nl ls : comments_ok ls -> (forall n s, In (n, s) (src_doc ls) -> line_ok n s) ->
  forall l, In l (map src_str ls) -> ~ In c_nl l.
Proof.
  intros C H l L. apply in_map_iff in L. destruct L as (x & <- & X).
  assert (CC : ~ In c_nl (comment_str (comment_of x))).
  { destruct (comment_of x) as [t|] eqn:E; [|intros []]. cbn. intros [K|K]; [discriminate K|]. exact (C x t X E K). }
  assert (RR : forall cr, ~ In c_nl (cr_str cr)) by (intros []; cbn; [intros [K|[]]; discriminate K|intros []]).
  assert (SS : forall n, ~ In c_nl (spaces n)) by (intros n K; apply in_spaces in K; discriminate).
  destruct x as [n s c cr|n c cr]; cbn [src_str comment_of] in *.
  - assert (D : In (n, s) (src_doc ls)).
    { clear -X. induction ls as [|y ls IH]; [contradiction|]. destruct X as [->|X]; [left; reflexivity|].
      destruct y; cbn; [right|]; apply IH; exact X. }
    destruct (H n s D) as (_ & P & _). rewrite Forall_forall in P.
    intros I. apply in_app_or in I. destruct I as [I|I]; [exact (SS _ I)|]. apply in_app_or in I. destruct I as [I|I]; [exact (printable_nl (P _ I))|].
    apply in_app_or in I. destruct I as [I|I]; [exact (CC I)|exact (RR _ I)].
  - intros I. apply in_app_or in I. destruct I as [I|I]; [exact (SS _ I)|]. apply in_app_or in I. destruct I as [I|I]; [exact (CC I)|exact (RR _ I)].
Qed.
