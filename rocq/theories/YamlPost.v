(* Splitting and typing the lines of a document. *)
From Coq Require Import List Ascii String Arith Bool Lia.
From Verif Require Import YamlModel YamlSpec YamlProofs.
Import ListNotations.
Local Open Scope nat_scope.

(* ---------- induction on documents ---------- *)

Lemma doc_ind' (P : doc -> Prop) :
  (forall q v t, P (DText q v t)) ->
  (forall es, (forall p c, In (p, c) es -> P c) -> P (DSeq es)) ->
  (forall es, (forall k p c, In (k, p, c) es -> P c) -> P (DMap es)) ->
  forall d, P d.
Proof.
  intros HT HS HM. fix F 1. intros [q v t|es|es].
  - apply HT.
  - apply HS. induction es as [|[p c] es IH]; intros p' c' I; [destruct I|].
    destruct I as [I|I]; [|exact (IH p' c' I)].
    pose proof (F c) as G. assert (E : c = c') by congruence. rewrite <- E. exact G.
  - apply HM. induction es as [|[[k p] c] es IH]; intros k' p' c' I; [destruct I|].
    destruct I as [I|I]; [|exact (IH k' p' c' I)].
    pose proof (F c) as G. assert (E : c = c') by congruence. rewrite <- E. exact G.
Qed.

(* ---------- the recursion bound is never reached ---------- *)

Lemma clear_empty_len ls : List.length (clear_empty ls) <= List.length ls.
Proof. induction ls as [|l ls IH]; cbn; [lia|]. destruct (is_empty (l_data l)); cbn; lia. Qed.
Lemma continuation_len p ls k q : List.length (snd (continuation p ls k q)) <= List.length ls.
Proof.
  revert k q. induction ls as [|l ls IH]; intros k q; cbn [continuation]; [cbn; lia|].
  destruct (is_empty (l_data l)); [cbn; specialize (IH k (q ++ [mkL (l_data l) (l_off l) LScalar])); lia|].
  destruct (l_off l <=? p); [cbn; lia|]. cbn. specialize (IH (k ++ q ++ [mkL (l_data l) (l_off l) LScalar]) []). lia.
Qed.

Lemma pp_scalar_ext go go' prev l rest :
  (forall p ls, List.length ls <= List.length rest -> go p ls = go' p ls) ->
  pp_scalar go prev l rest = pp_scalar go' prev l rest.
Proof.
  intros H. unfold pp_scalar. cbv zeta.
  pose proof (continuation_len (match prev with Some o => o | None => l_off l end) rest [] []) as L.
  destruct (continuation _ rest [] []) as [kept todo]. cbn [snd] in L. rewrite H by exact L. reflexivity.
Qed.
Lemma pp_mapping_ext go go' prev l rest :
  (forall p ls, List.length ls <= List.length rest -> go p ls = go' p ls) ->
  pp_mapping go prev l rest = pp_mapping go' prev l rest.
Proof.
  intros H. unfold pp_mapping. destruct (find_not_cited (l_data l) ":") as [[token|] quoted]; [|apply pp_scalar_ext; exact H].
  destruct (1 <? quoted); [reflexivity|]. destruct (map_key _ _ _); [|reflexivity]. cbn [rbind].
  destruct (is_seq_start _); [reflexivity|].
  pose proof (clear_empty_len rest) as L.
  assert (G : forall p x, pp_scalar go p x (clear_empty rest) = pp_scalar go' p x (clear_empty rest)).
  { intros p x. apply pp_scalar_ext. intros q ls Q. apply H. lia. }
  destruct (find_at not_ws (l_data l) (token + 1)) as [v|].
  - destruct (block_scalar _); [|reflexivity]. cbn [rbind]. rewrite G. reflexivity.
  - destruct (clear_empty rest) as [|nx r] eqn:E; [rewrite G; reflexivity|].
    rewrite G. rewrite H by exact L. reflexivity.
Qed.
Lemma pp_fuel f g prev ls : List.length ls <= f -> List.length ls <= g -> pp f prev ls = pp g prev ls.
Proof.
  revert g prev ls. induction f as [|f IH]; intros g prev ls F G.
  - destruct ls; [|cbn in F; lia]. destruct g; reflexivity.
  - destruct ls as [|l rest]; [destruct g; reflexivity|]. cbn [List.length] in F, G. destruct g as [|g]; [lia|].
    cbn [pp]. pose proof (clear_empty_len rest) as L.
    assert (M : forall p x r, List.length r <= List.length rest -> pp_mapping (pp f) p x r = pp_mapping (pp g) p x r).
    { intros p x r Lr. apply pp_mapping_ext. intros q ls Lq. apply IH; lia. }
    destruct (is_seq_start (l_data l)); [|apply M; lia].
    destruct (find_at not_ws (l_data l) 1).
    + rewrite M by exact L. reflexivity.
    + rewrite (IH g) by lia. reflexivity.
Qed.

Definition ppx (prev : option nat) (ls : list rline) : res (list rline) := pp (List.length ls) prev ls.

Lemma ppx_cons prev l rest :
  ppx prev (l :: rest) =
  if is_seq_start (l_data l) then
    let rest' := clear_empty rest in
    match find_at not_ws (l_data l) 1 with
    | None => rbind (ppx (Some (l_off l)) rest') (fun out => Ok (mkL (l_data l) (l_off l) LSeq :: out))
    | Some v =>
        rbind (pp_mapping ppx (Some (l_off l)) (mkL (skipn v (l_data l)) (l_off l + v) LNone) rest')
          (fun out => Ok (mkL [] (l_off l) LSeq :: out))
    end
  else pp_mapping ppx prev l rest.
Proof.
  unfold ppx at 1. cbn [List.length pp]. pose proof (clear_empty_len rest) as L.
  assert (M : forall p x r, List.length r <= List.length rest -> pp_mapping (pp (List.length rest)) p x r = pp_mapping ppx p x r).
  { intros p x r Lr. apply pp_mapping_ext. intros q ls Lq. unfold ppx. apply pp_fuel; lia. }
  destruct (is_seq_start (l_data l)); [|apply M; lia].
  destruct (find_at not_ws (l_data l) 1).
  - cbv zeta. rewrite M by exact L. reflexivity.
  - cbv zeta. unfold ppx. rewrite (pp_fuel (List.length rest) (List.length (clear_empty rest))) by lia. reflexivity.
Qed.

(* ---------- blank lines ---------- *)

Lemma clear_empty_filter ls : filter ne (clear_empty ls) = filter ne ls.
Proof.
  induction ls as [|l ls IH]; [reflexivity|]. cbn [clear_empty].
  destruct (is_empty (l_data l)) eqn:E; [|reflexivity]. rewrite IH. cbn [filter]. unfold ne at 2. rewrite E. reflexivity.
Qed.
Lemma clear_empty_starts ls : starts_ne (clear_empty ls).
Proof.
  induction ls as [|l ls IH]; [exact I|]. cbn [clear_empty]. destruct (is_empty (l_data l)) eqn:E; [exact IH|].
  cbn. unfold ne. rewrite E. reflexivity.
Qed.
Lemma clear_empty_id ls : starts_ne ls -> clear_empty ls = ls.
Proof. destruct ls as [|l ls]; [reflexivity|]. cbn. unfold ne. destruct (is_empty (l_data l)); [discriminate|reflexivity]. Qed.
Lemma starts_filter ls x R : starts_ne ls -> filter ne ls = x :: R -> exists t, ls = x :: t /\ filter ne t = R /\ ne x = true.
Proof.
  destruct ls as [|l ls]; [discriminate|]. cbn [starts_ne filter]. intros N. rewrite N. intros E. inversion E; subst.
  exists ls. auto.
Qed.
Lemma starts_filter_nil ls : starts_ne ls -> filter ne ls = [] -> ls = [].
Proof. destruct ls as [|l ls]; [reflexivity|]. cbn [starts_ne filter]. intros N. rewrite N. discriminate. Qed.

Definition rest_ok (b : nat) (R : list rline) : Prop := match R with [] => True | l :: _ => l_off l <= b end.

Lemma continuation_stop b rest pend : rest_ok b (filter ne rest) -> continuation b rest [] pend = ([], clear_empty rest).
Proof.
  revert pend. induction rest as [|l rest IH]; intros pend H; [reflexivity|]. cbn [continuation clear_empty].
  destruct (is_empty (l_data l)) eqn:E.
  - cbn [filter] in H. unfold ne at 1 in H. rewrite E in H. apply IH. exact H.
  - cbn [filter] in H. unfold ne at 1 in H. rewrite E in H. cbn in H.
    replace (l_off l <=? b) with true by (symmetry; apply Nat.leb_le; exact H). reflexivity.
Qed.

Lemma pp_scalar_one go prev l rest : rest_ok (match prev with Some o => o | None => l_off l end) (filter ne rest) ->
  pp_scalar go prev l rest =
  rbind (go (Some (l_off l)) (clear_empty rest)) (fun out => Ok (mkL (l_data l) (l_off l) LScalar :: out)).
Proof. intros H. unfold pp_scalar. cbv zeta. rewrite continuation_stop by exact H. reflexivity. Qed.

(* ---------- facts about the text of a line ---------- *)

Lemma blank_dec c : {blank c} + {~ blank c}.
Proof. destruct (is_ws c) eqn:E; [left; apply is_ws_blank; exact E|right; rewrite <- is_ws_blank; congruence]. Qed.

Lemma hd_app {A} (a b : list A) d : a <> [] -> hd d (a ++ b) = hd d a.
Proof. destruct a; [contradiction|reflexivity]. Qed.

Lemma trimmed_last s : trimmed s -> exists a c, s = a ++ [c] /\ ~ blank c.
Proof. intros (N & _ & L). destruct (last_split s c_sp N) as [a E]. exists a, (List.last s c_sp). auto. Qed.

Lemma seq_start_iff d : is_seq_start d = true <-> dash_start d.
Proof.
  unfold is_seq_start, dash_start. destruct d as [|c [|c2 r]]; split; intros H; try discriminate.
  - destruct H as [H|[r H]]; discriminate.
  - rewrite andb_true_r in H. apply Ascii.eqb_eq in H. subst. left. reflexivity.
  - destruct H as [H|[r H]]; [inversion H; reflexivity|discriminate].
  - apply andb_true_iff in H. destruct H as [H1 H2]. apply Ascii.eqb_eq in H1, H2. subst. right. exists r. reflexivity.
  - destruct H as [H|[r' H]]; [discriminate|]. inversion H; subst. reflexivity.
Qed.
Lemma seq_start_false d : ~ dash_start d -> is_seq_start d = false.
Proof. rewrite <- seq_start_iff. destruct (is_seq_start d); [congruence|reflexivity]. Qed.

(* a text that does not start with "-", or a trimmed one that does not start
   like an entry, followed by anything that does not change that *)
Lemma dash_app v t : trimmed v -> ~ dash_start v -> (v = lit "-" -> False) -> ~ dash_start (v ++ t).
Proof.
  intros (N & H & L) D _ [E|[r E]].
  - destruct v as [|c [|c2 v]]; [contradiction| |discriminate]. inversion E; subst. apply D. left. reflexivity.
  - destruct v as [|c [|c2 v]]; [contradiction| |].
    + inversion E; subst. apply D. left. reflexivity.
    + inversion E; subst. apply D. right. exists v. reflexivity.
Qed.
Lemma not_dash_hd s : hd c_sp s <> "-"%char -> ~ dash_start s.
Proof. intros H [->|[r ->]]; apply H; reflexivity. Qed.

Lemma plast_snoc p a c : plast p (a ++ [c]) = Some c.
Proof. rewrite plast_app by discriminate. reflexivity. Qed.
Lemma closed_intro v : ~ In c_dq v -> List.last v c_sp <> c_bs -> closed v.
Proof.
  intros D L. split; [exact D|]. destruct v as [|c v]; [discriminate|]. unfold plast. intros E. apply L. congruence.
Qed.

(* the text of a value *)
Definition text_str (q : quoting) (v : str) : str := quoted q v.

Lemma text_ne q v : text_ok q v -> quoted q v <> [].
Proof. destruct q; cbn; [intros (_ & (N & _) & _); exact N|discriminate|discriminate]. Qed.
Lemma text_hd q v : text_ok q v -> ~ blank (hd c_sp (quoted q v)).
Proof. destruct q; cbn; [intros (_ & (_ & N & _) & _); exact N| |]; intros _ [H|H]; discriminate. Qed.
Lemma text_last q v : text_ok q v -> exists a c, quoted q v = a ++ [c] /\ ~ blank c.
Proof.
  destruct q; cbn [quoted text_ok].
  - intros (_ & H & _). apply trimmed_last. exact H.
  - intros _. exists (c_dq :: v), c_dq. split; [reflexivity|]. intros [H|H]; discriminate.
  - intros _. exists (c_sq :: v), c_sq. split; [reflexivity|]. intros [H|H]; discriminate.
Qed.
Lemma text_printable q v : text_ok q v -> Forall printable (quoted q v).
Proof.
  assert (D : printable c_dq) by (right; vm_compute; lia). assert (S : printable c_sq) by (right; vm_compute; lia).
  destruct q; cbn [quoted text_ok].
  - intros (H & _). exact H.
  - intros (H & _). constructor; [exact D|]. apply Forall_app. split; [exact H|]. constructor; [exact D|constructor].
  - intros ((H & _) & _). constructor; [exact S|]. apply Forall_app. split; [exact H|]. constructor; [exact S|constructor].
Qed.
Lemma text_no q v c : text_ok q v -> ~ In c v -> c <> c_dq -> c <> c_sq -> ~ In c (quoted q v).
Proof.
  intros _ N D S I. destruct q; cbn [quoted] in I; [exact (N I)| |];
  (destruct I as [I|I]; [congruence|apply in_app_or in I; destruct I as [I|[I|[]]]; [exact (N I)|congruence]]).
Qed.
Lemma text_no_hash q v : text_ok q v -> ~ In "#"%char (quoted q v).
Proof.
  intros H. apply text_no; try exact H; try discriminate.
  destruct q; cbn in H; [exact (proj1 (proj2 (proj2 (proj2 H))))|exact (proj1 (proj2 (proj2 H)))|exact (proj1 (proj2 (proj2 (proj1 H))))].
Qed.
Lemma text_bal q v : text_ok q v -> bal (quoted q v).
Proof.
  destruct q; cbn [quoted text_ok].
  - intros (_ & _ & _ & _ & H & _). apply bal_no_dq. exact H.
  - intros (_ & _ & _ & D & L). apply bal_dq. apply closed_intro; assumption.
  - intros ((_ & _ & _ & D & L) & S). apply bal_no_dq. intros [I|I]; [discriminate|].
    apply in_app_or in I. destruct I as [I|[I|[]]]; [exact (D I)|discriminate].
Qed.
Lemma text_dash q v t : text_ok q v -> ~ dash_start (quoted q v ++ t).
Proof.
  destruct q; cbn [quoted text_ok]; intros H; [|apply not_dash_hd; discriminate|apply not_dash_hd; discriminate].
  destruct H as (_ & T & D & _). apply dash_app; [exact T|exact D|]. intros ->. apply D. left. reflexivity.
Qed.
Lemma text_block q v t : text_ok q v -> block_scalar (quoted q v ++ t) = Ok None.
Proof.
  intros H. destruct q; cbn [quoted app]; [|reflexivity|reflexivity].
  destruct H as (_ & (N & _) & _ & _ & _ & _ & B1 & B2). destruct v as [|c v]; [contradiction|]. cbn [hd app] in *. unfold block_scalar.
  replace (Ascii.eqb c "|") with false by (symmetry; apply Ascii.eqb_neq; exact B1).
  replace (Ascii.eqb c ">") with false by (symmetry; apply Ascii.eqb_neq; exact B2). reflexivity.
Qed.

Lemma bal_app_no_dq a b : bal a -> ~ In c_dq b -> bal (a ++ b).
Proof. intros A B p i P. rewrite oafter_app, (no_dq_open _ b) by exact B. apply A. exact P. Qed.

(* the text of a key *)
Lemma key_ne k : key_ok k -> key_str k <> [].
Proof.
  intros (_ & _ & _ & _ & _ & T). unfold key_str. destruct (k_quoted k); [discriminate|].
  destruct (T eq_refl) as [(N & _) _]. cbn [quoted]. destruct (k_text k); [contradiction|discriminate].
Qed.
Lemma key_hd k : key_ok k -> ~ blank (hd c_sp (key_str k)).
Proof.
  intros (_ & _ & _ & _ & _ & T). unfold key_str. destruct (k_quoted k); [intros [H|H]; discriminate|].
  destruct (T eq_refl) as [(N & H & _) _]. cbn [quoted]. rewrite hd_app by exact N. exact H.
Qed.
Lemma key_printable k : key_ok k -> Forall printable (key_str k).
Proof.
  intros (P & _). unfold key_str. assert (D : printable c_dq) by (right; vm_compute; lia).
  apply Forall_app. split.
  - destruct (k_quoted k); cbn [quoted]; [|exact P]. constructor; [exact D|]. apply Forall_app. split; [exact P|]. constructor; [exact D|constructor].
  - apply Forall_forall. intros c C. rewrite (in_spaces _ _ C). exact printable_sp.
Qed.
Lemma key_no k c : ~ In c (k_text k) -> c <> c_dq -> c <> c_sp -> ~ In c (key_str k).
Proof.
  intros N D S I. unfold key_str in I. apply in_app_or in I. destruct I as [I|I]; [|apply in_spaces in I; contradiction].
  destruct (k_quoted k); cbn [quoted] in I; [|exact (N I)].
  destruct I as [I|I]; [congruence|]. apply in_app_or in I. destruct I as [I|[I|[]]]; [exact (N I)|congruence].
Qed.
Lemma last_in {A} (s : list A) d : s <> [] -> In (List.last s d) s.
Proof. intros N. destruct (last_split s d N) as [a E]. rewrite E at 2. apply in_or_app. right. left. reflexivity. Qed.
Lemma key_closed k : key_ok k -> closed (k_text k).
Proof.
  intros (_ & _ & D & _ & B & _). apply closed_intro; [exact D|]. intros E.
  destruct (k_text k) as [|c s] eqn:K; [discriminate E|]. apply B. rewrite <- E. apply last_in. discriminate.
Qed.
Lemma key_quotes k : key_ok k ->
  List.length (quotes (key_str k)) = (if k_quoted k then 1 else 0) /\ bal (key_str k).
Proof.
  intros K. pose proof (key_closed k K) as C. destruct K as (_ & _ & D & _). unfold key_str, quotes.
  destruct (k_quoted k); cbn [quoted].
  - destruct (dq_quotes None (k_text k) 0 ltac:(discriminate) C) as [E1 E2]. rewrite quotes_app, E1, E2.
    rewrite no_dq_quotes by apply spaces_no_dq. split; [reflexivity|]. apply bal_app_no_dq; [apply bal_dq; exact C|apply spaces_no_dq].
  - assert (N : ~ In c_dq (k_text k ++ spaces (k_gap k))).
    { intros I. apply in_app_or in I. destruct I as [I|I]; [exact (D I)|exact (spaces_no_dq _ I)]. }
    rewrite no_dq_quotes by exact N. split; [reflexivity|]. apply bal_no_dq. exact N.
Qed.
Lemma key_dash k t : key_ok k -> ~ dash_start (key_str k ++ t).
Proof.
  intros (_ & _ & _ & _ & _ & T). unfold key_str. destruct (k_quoted k); [apply not_dash_hd; discriminate|].
  destruct (T eq_refl) as [T1 T2]. cbn [quoted]. rewrite <- app_assoc. apply dash_app; [exact T1|exact T2|]. intros E. apply T2. left. exact E.
Qed.
Lemma remove_escapes_id s : ~ In c_bs s -> remove_escapes s = s.
Proof.
  induction s as [|c s IH]; intros H; [reflexivity|]. cbn [remove_escapes].
  replace (Ascii.eqb c c_bs) with false by (symmetry; apply Ascii.eqb_neq; intros E; apply H; left; congruence).
  rewrite IH; [reflexivity|]. intros I. apply H. right. exact I.
Qed.

Lemma key_token k t : key_ok k ->
  find_not_cited (key_str k ++ lit ":" ++ t) ":" = (Some (List.length (key_str k)), if k_quoted k then 1 else 0).
Proof.
  intros K. destruct (key_quotes k K) as [Q B]. destruct K as (_ & _ & _ & C & _).
  change (key_str k ++ lit ":" ++ t) with (key_str k ++ ":"%char :: t).
  rewrite not_cited_after; [rewrite Q; reflexivity| | |discriminate].
  - apply key_no; [exact C|discriminate|discriminate].
  - apply B. discriminate.
Qed.
Lemma key_read k t : key_ok k ->
  map_key (key_str k ++ lit ":" ++ t) (List.length (key_str k)) (if k_quoted k then 1 else 0) = Ok (k_text k).
Proof.
  intros K. unfold map_key. rewrite firstn_len. unfold key_str at 1.
  rewrite find_last_app by apply spaces_ws. pose proof K as (_ & _ & _ & _ & B & T).
  destruct (k_quoted k) eqn:Q; cbn [quoted].
  - change (c_dq :: k_text k ++ [c_dq]) with ((c_dq :: k_text k) ++ [c_dq]). rewrite find_last_end by reflexivity.
    unfold key_str. rewrite Q. cbn [quoted].
    replace (firstn (S (List.length (c_dq :: k_text k))) ((c_dq :: k_text k ++ [c_dq]) ++ spaces (k_gap k))) with (c_dq :: k_text k ++ [c_dq]).
    2:{ replace (S (List.length (c_dq :: k_text k))) with (List.length (c_dq :: k_text k ++ [c_dq])) by (cbn; rewrite app_length; cbn; lia).
        rewrite firstn_len. reflexivity. }
    cbn [Nat.eqb]. change (c_dq :: k_text k ++ [c_dq]) with ((c_dq :: k_text k) ++ [c_dq]) at 1. rewrite last_last.
    replace (Ascii.eqb c_dq c_dq && Ascii.eqb c_dq c_dq) with true by reflexivity.
    cbn [skipn]. replace (List.length (c_dq :: k_text k ++ [c_dq]) - 2) with (List.length (k_text k)) by (cbn; rewrite app_length; cbn; lia).
    rewrite firstn_len, remove_escapes_id by exact B. reflexivity.
  - destruct (T eq_refl) as [T1 _]. destruct (trimmed_last _ T1) as (a & c & E & C).
    rewrite E at 1. rewrite find_last_end by (apply not_ws_blank; exact C). unfold key_str. rewrite Q. cbn [quoted Nat.eqb].
    replace (S (List.length a)) with (List.length (k_text k)) by (rewrite E, app_length; cbn; lia).
    rewrite firstn_len, remove_escapes_id by exact B. reflexivity.
Qed.

(* the value after a key *)
Lemma value_at k g s : s <> [] -> ~ blank (hd c_sp s) ->
  find_at not_ws (key_str k ++ lit ":" ++ spaces g ++ s) (List.length (key_str k) + 1) = Some (List.length (key_str k) + 1 + g) /\
  skipn (List.length (key_str k) + 1 + g) (key_str k ++ lit ":" ++ spaces g ++ s) = s.
Proof.
  intros N H. split.
  - replace (key_str k ++ lit ":" ++ spaces g ++ s) with ((key_str k ++ lit ":") ++ spaces g ++ s) by (rewrite <- app_assoc; reflexivity).
    replace (List.length (key_str k) + 1) with (List.length (key_str k ++ lit ":")) by (rewrite app_length; reflexivity).
    rewrite find_at_app. destruct s as [|c s]; [contradiction|]. cbn [hd] in H.
    rewrite find_if_at; [|apply spaces_ws|apply not_ws_blank; exact H]. cbn. rewrite spaces_len. reflexivity.
  - replace (key_str k ++ lit ":" ++ spaces g ++ s) with ((key_str k ++ lit ":" ++ spaces g) ++ s) by (rewrite <- !app_assoc; reflexivity).
    replace (List.length (key_str k) + 1 + g) with (List.length (key_str k ++ lit ":" ++ spaces g)) by (rewrite !app_length, spaces_len; cbn; lia).
    apply skipn_len.
Qed.
Lemma value_none k t : find_at not_ws (key_str k ++ lit ":" ++ spaces t) (List.length (key_str k) + 1) = None.
Proof.
  replace (key_str k ++ lit ":" ++ spaces t) with ((key_str k ++ lit ":") ++ spaces t) by (rewrite <- app_assoc; reflexivity).
  replace (List.length (key_str k) + 1) with (List.length (key_str k ++ lit ":")) by (rewrite app_length; reflexivity).
  rewrite find_at_app, find_if_none by apply spaces_ws. reflexivity.
Qed.
Lemma dash_at g s : s <> [] -> ~ blank (hd c_sp s) ->
  find_at not_ws (lit "-" ++ spaces (S g) ++ s) 1 = Some (2 + g) /\ skipn (2 + g) (lit "-" ++ spaces (S g) ++ s) = s.
Proof.
  intros N H. split.
  - change 1 with (List.length (lit "-")) at 1. rewrite find_at_app. destruct s as [|c s]; [contradiction|]. cbn [hd] in H.
    rewrite find_if_at; [|apply spaces_ws|apply not_ws_blank; exact H]. cbn [option_map]. rewrite spaces_len. reflexivity.
  - rewrite app_assoc. replace (2 + g) with (List.length (lit "-" ++ spaces (S g))) by (rewrite app_length, spaces_len; reflexivity). apply skipn_len.
Qed.
Lemma dash_none t : find_at not_ws (lit "-" ++ spaces t) 1 = None.
Proof. change 1 with (List.length (lit "-")) at 1. rewrite find_at_app, find_if_none by apply spaces_ws. reflexivity. Qed.
Lemma dash_seq t s : is_seq_start (lit "-" ++ spaces (S t) ++ s) = true. Proof. reflexivity. Qed.
Lemma dash_seq0 t : is_seq_start (lit "-" ++ spaces t) = true. Proof. destruct t; reflexivity. Qed.
