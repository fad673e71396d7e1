(* Concrete documents, trees and texts for the YAML theorems. *)
From Coq Require Import List Ascii String Arith Bool Lia Permutation.
From Verif Require Import YamlModel YamlSpec.
Import ListNotations.
Local Open Scope nat_scope.

Definition K (s : string) : dkey := mkKey false (lit s) 0.
Definition T (s : string) : doc := DText Bare (lit s) 0.

(* An input deck in two layouts:

     # a deck
     dynamic_options:
       time_final : 2.5   # seconds
       "dt start": '1e-5'

     regions:
       - region:
           type: sphere of r: 2
         density: 1.0
       -
         void
*)
Definition deck : doc :=
  DMap [ (K "dynamic_options", NextLine 0 1,
            DMap [ (mkKey false (lit "time_final") 1, SameLine 1, DText Bare (lit "2.5") 3);
                   (mkKey true (lit "dt start") 0, SameLine 1, DText SQuoted (lit "1e-5") 0) ]);
         (K "regions", NextLine 0 1,
            DSeq [ (SameLine 0,
                      DMap [ (K "region", NextLine 0 3, DMap [ (K "type", SameLine 1, T "sphere of r: 2") ]);
                             (K "density", SameLine 1, T "1.0") ]);
                   (NextLine 0 1, T "void") ]) ].

Definition deck_file : list src_line :=
  [ SBlank 0 (Some (lit " a deck")) false;
    SLine 0 (lit "dynamic_options:") None true;
    SLine 2 (lit "time_final : 2.5   ") (Some (lit " seconds")) true;
    SLine 2 (lit """dt start"": '1e-5'") None false;
    SBlank 3 None true;
    SLine 0 (lit "regions:") None false;
    SLine 2 (lit "- region:") None false;
    SLine 8 (lit "type: sphere of r: 2") None false;
    SLine 4 (lit "density: 1.0") None false;
    SLine 2 (lit "-") None false;
    SLine 4 (lit "void") None false;
    SBlank 0 None false ].

(* The same data, other order and layout. *)
Definition deck2 : doc :=
  DMap [ (mkKey true (lit "regions") 2, NextLine 1 0,
            DSeq [ (NextLine 0 0,
                      DMap [ (K "region", NextLine 0 0, DMap [ (K "type", SameLine 0, T "sphere of r: 2") ]);
                             (K "density", SameLine 5, DText DQuoted (lit "1.0") 1) ]);
                   (SameLine 2, T "void") ]);
         (K "dynamic_options", NextLine 0 1,
            DMap [ (K "time_final", SameLine 1, DText DQuoted (lit "2.5") 0);
                   (K "dt start", SameLine 1, T "1e-5") ]) ].

Definition deck2_file : list src_line := map (fun p => SLine (fst p) (snd p) None false) (doc_lines 0 deck2).

Lemma printable_b s : forallb valid_char s = true -> Forall printable s.
Proof.
  intros H. apply Forall_forall. intros c C. rewrite forallb_forall in H. specialize (H c C). unfold valid_char in H.
  apply orb_true_iff in H. destruct H as [H|H]; [left; apply Ascii.eqb_eq; exact H|right].
  apply andb_true_iff in H. destruct H as [A B]. apply Nat.leb_le in A, B. split; assumption.
Qed.
Ltac ok_str := unfold key_ok, text_ok, bare_ok, quoted_ok, value_ok, plain_key, trimmed;
  cbn [k_text k_quoted K quoted];
  repeat match goal with
  | |- _ /\ _ => split
  | |- Forall printable _ => apply printable_b; reflexivity
  | |- ~ has _ _ => unfold has; cbn; intuition discriminate
  | |- ~ blank _ => intros [?|?]; discriminate
  | |- ~ dash_start _ => intros [?|[? ?]]; discriminate
  | |- _ <> _ => discriminate
  | |- _ -> _ => intros ?; try discriminate
  end.
Ltac in_cases := repeat match goal with
  | H : In _ (_ :: _) |- _ => destruct H as [H|H]; [inversion H; subst; clear H|]
  | H : In _ [] |- _ => destruct H end.

Lemma bare_T colons s : bare_ok (lit s) -> (colons = false -> ~ has ":" (lit s)) -> doc_ok colons (T s).
Proof. intros A B. constructor; assumption. Qed.

Ltac ok_doc := match goal with
  | |- doc_ok _ (DMap _) => apply ok_map; [discriminate|intros ? ? ? ?; in_cases; ok_str
                             |intros ? ? ? ?; in_cases; ok_doc
                             |intros ? ? ? ? ?; in_cases; try discriminate; eexists _, _, _; reflexivity]
  | |- doc_ok _ (DSeq _) => apply ok_seq; [discriminate|intros ? ? ?; in_cases; ok_doc|intros ? ? ? ? ?; in_cases; discriminate]
  | |- doc_ok _ _ => apply ok_text; [ok_str|intros ?; first [discriminate|unfold has; cbn; intuition discriminate]]
  end.

Example deck_ok : root_ok deck.
Proof. split; [|exact I]. unfold deck. ok_doc. Qed.
Example deck2_ok : root_ok deck2.
Proof. split; [|exact I]. unfold deck2. ok_doc. Qed.

Ltac nd_doc := match goal with
  | |- no_dup_keys (DMap _) => apply nd_map; [repeat constructor; cbn; intuition discriminate|intros ? ? ? ?; in_cases; nd_doc]
  | |- no_dup_keys (DSeq _) => apply nd_seq; intros ? ? ?; in_cases; nd_doc
  | |- no_dup_keys _ => apply nd_text end.

Example deck_nodup : no_dup_keys deck. Proof. unfold deck. nd_doc. Qed.
Example deck2_nodup : no_dup_keys deck2. Proof. unfold deck2. nd_doc. Qed.
Example deck_lines : src_doc deck_file = doc_lines 0 deck. Proof. reflexivity. Qed.
Example deck2_lines : src_doc deck2_file = doc_lines 0 deck2. Proof. reflexivity. Qed.
Example deck_comments : comments_ok deck_file.
Proof. intros l t I E. unfold deck_file in I. cbn [In] in I. repeat (destruct I as [<-|I]; [cbn in E; try discriminate; inversion E; unfold has; cbn; intuition discriminate|]). destruct I. Qed.
Example deck2_comments : comments_ok deck2_file.
Proof. intros l t I E. unfold deck2_file in I. apply in_map_iff in I. destruct I as (p & <- & _). discriminate E. Qed.

Lemma nth_cons2 {A} (x : A) l i y : nth_error (x :: l) i = Some y -> (i = 0 /\ x = y) \/ exists j, i = S j /\ nth_error l j = Some y.
Proof. destruct i as [|i]; cbn; [intros H; inversion H; auto|intros H; right; eauto]. Qed.
Ltac nth_cases := repeat match goal with
  | H : nth_error (_ :: _) ?i = Some _ |- _ => is_var i; destruct i; cbn [nth_error] in *
  | H : nth_error [] ?i = Some _ |- _ => exfalso; destruct i; discriminate H
  | H : Some _ = Some _ |- _ => inversion H; subst; clear H
  | H : nth_error [] _ = Some _ |- _ => discriminate H
  | H : None = Some _ |- _ => discriminate H end.
Ltac same_doc := match goal with
  | |- same_data (DText _ _ _) (DText _ _ _) => apply sd_text
  | |- same_data (T _) _ => unfold T; same_doc
  | |- same_data _ (T _) => unfold T; same_doc
  | |- same_data (DSeq _) (DSeq _) => apply sd_seq; [reflexivity|intros ? ? ? ? ? ? ?; nth_cases; same_doc] end.

Example decks_same : same_data deck deck2.
Proof.
  unfold deck, deck2. eapply sd_map; [apply perm_swap|reflexivity|intros; nth_cases; reflexivity|].
  intros; nth_cases.
  - eapply sd_map; [apply Permutation_refl|reflexivity|intros; nth_cases; reflexivity|]. intros; nth_cases; same_doc.
  - apply sd_seq; [reflexivity|]. intros; nth_cases; [|same_doc].
    eapply sd_map; [apply Permutation_refl|reflexivity|intros; nth_cases; reflexivity|]. intros; nth_cases; [|same_doc].
    eapply sd_map; [apply Permutation_refl|reflexivity|intros; nth_cases; reflexivity|]. intros; nth_cases; same_doc.
Qed.

(* what the reader makes of the two files, by running it *)
Definition deck_tree : node :=
  NMap [ (lit "dynamic_options",
            NMap [ (lit "dt start", NScalar (lit "1e-5")); (lit "time_final", NScalar (lit "2.5")) ]);
         (lit "regions",
            NSeq [ (0, NMap [ (lit "density", NScalar (lit "1.0"));
                              (lit "region", NMap [ (lit "type", NScalar (lit "sphere of r: 2")) ]) ]);
                   (1, NScalar (lit "void")) ]) ].
Example deck_runs : parse (src_text deck_file) = Ok deck_tree. Proof. vm_compute. reflexivity. Qed.
Example deck2_runs : parse (src_text deck2_file) = Ok deck_tree. Proof. vm_compute. reflexivity. Qed.

(* a tree that can be written *)
Definition cfg0 : sconfig := mkCfg 2 64 false false.
Ltac wr := match goal with
  | |- writable _ _ (NScalar _) => apply wr_scalar; [ok_str|intros ?; first [discriminate|unfold has; cbn; intuition discriminate]|right; cbn; lia]
  | |- writable _ _ (NSeq _) => apply wr_seq; [discriminate|intros ? ? ?; in_cases; wr]
  | |- writable _ _ (NMap _) => apply wr_map; [discriminate|intros ? ? ?; in_cases; ok_str|intros ? ? ?; in_cases; wr] end.
Example deck_writable : writable cfg0 false deck_tree.
Proof. unfold deck_tree. wr. Qed.

Definition text (ls : list string) : str := join_lines (map lit ls).
