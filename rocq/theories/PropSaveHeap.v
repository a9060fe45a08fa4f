(** * PropSaveHeap: printing extensions and the memory (C63)

    The data of an extension is printed to a string of its own, which is appended to the buffer between the tags and released;
    symbols print the extensions they contain in the same way.  When it is over the memory is exactly what it was, and the text. *)
From stdpp Require Import gmap.
From iris.proofmode Require Import tactics.
From Coq Require Import ZifyBool ZifyNat.
From Verif Require Import Base IntModel VectorModel RelationModel UtilModel StringsModel ExtModel RelTextModel Spec RelSpec HeapModel HeapObjects HeapSpec HeapLogic HeapProofs ScopModel CloneSpec PropClone PayloadModel PayloadSpec PayloadProofs PayloadProofs2 PayloadProofs3 PayloadProofs5 PayloadExists PropHeap MatModel MatSpec MatProofs MatProofs4 PropMat FullModel FullSpec FullExists FullProofs FullProofs2 PropFull PrintHeapModel SaveHeapModel SaveHeapProofs SaveHeapProofs2.
Local Open Scope string_scope.
Local Open Scope list_scope.
Local Open Scope Z_scope.
Notation loop := HeapModel.loop.
Notation cell := PayloadSpec.cell.

Section P.
Context (cfg : config) (al : Allocator obj).

(** The text is a new string, and nothing else has changed, been lost or left behind. *)
Theorem C63_generic_sprint : ∀ h p l, within h (m_generics p l) →
  agrees (osl_generic_sprint l) (osl_generic_sprint_h p) h (λ text q, exactly h ⋆ m_str q (Some text)).
Proof.
  intros h p l Sp. apply (agrees_new h (λ q text, m_str q (Some text))). intros Q. iIntros "[H K]". iApply sim_generic_sprint; [exact Sp|]. iFrame "H". iIntros (t q) "H P". iApply ("K" with "H"). cbn [m_str]. rewrite M_cell. iFrame.
Qed.
(** The text is written to the file, and the memory is what it was. *)
Theorem C63_generic_print : ∀ h p l, within h (m_generics p l) →
  agrees (osl_generic_sprint l) (osl_generic_print_h p) h (λ text written, exactly h ⋆ nothing (written = text)).
Proof.
  intros h p l Sp. apply (agrees_intro (own h) (λ t w, own h ∗ <affine> ⌜w = t⌝)%I); [|done|].
  - iIntros "H". iApply (sim_generic_print h p l); [exact Sp|]. iFrame "H". iIntros (t) "H". by iFrame.
  - intros t w h' (h1 & h2 & -> & Hdj & H1 & H2). exists h1, h2. split_and!; [done|done|exact H1|]. exact H2.
Qed.
Lemma M_maybe o q : maybe_str o q ⊢ M (m_str q o).
Proof. destruct o as [t|]; cbn [maybe_str m_str]; [by rewrite M_cell|by rewrite M_nothing]. Qed.
(** The sprint function of every interface but symbols, on NULL or on its data: a new string, or NULL. *)
Theorem C63_data_sprint : ∀ h k p d, within h (match d with None => nothing (p = NULL) | Some d => m_data p d end) → k ≠ KSymbols →
  agrees (match d with None => null_sprint k | Some d => data_sprint k d end) (data_sprint_h k p) h (λ text q, exactly h ⋆ m_str q text).
Proof.
  intros h k p d Sd Hk. apply (agrees_new h (λ q text, m_str q text)). intros Q. iIntros "[H K]". iApply (sim_data_sprint h k p d); [exact Sd|exact Hk|]. iFrame "H". iIntros (o q) "H P". iApply ("K" with "H"). by iApply M_maybe.
Qed.
Theorem C63_symbols_sprint : ∀ h p l, within h (m_symbols p l) →
  agrees (osl_symbols_sprint l) (osl_symbols_sprint_h p) h (λ text q, exactly h ⋆ m_str q text).
Proof.
  intros h p l Sp. apply (agrees_new h (λ q text, m_str q text)). intros Q. iIntros "[H K]". iApply (sim_symbols_sprint h p l); [exact Sp|]. iFrame "H". iIntros (o q) "H P". iApply ("K" with "H"). by iApply M_maybe.
Qed.
(** When the text is made (C33, C35, C53), the program ends, with this text. *)
Theorem C63_prints : ∀ h p l text, within h (m_generics p l) → osl_generic_sprint l = Ok text →
  runs_to (osl_generic_print_h p) h (λ written, exactly h ⋆ nothing (written = text)) ∧
  runs_to (osl_generic_sprint_h p) h (λ q, exactly h ⋆ m_str q (Some text)).
Proof. intros h p l text Sp E. pose proof (C63_generic_print h p l Sp) as H1. pose proof (C63_generic_sprint h p l Sp) as H2. rewrite E in H1, H2. done. Qed.
End P.
Print Assumptions C63_generic_sprint.
Print Assumptions C63_generic_print.
Print Assumptions C63_data_sprint.
Print Assumptions C63_symbols_sprint.
Print Assumptions C63_prints.

(** The extensions of the scop of C44 (a symbol with extensions of its own, arrays) are somewhere in memory and have a text. *)
Example C63_witness : ∃ h p text, within h (m_generics p (sc_ext PropClone.sample_scop)) ∧ sc_ext PropClone.sample_scop ≠ [] ∧ @osl_generic_sprint lp64_debug (sc_ext PropClone.sample_scop) = Ok text.
Proof.
  destruct PropClone.C44_witness as [H _]. assert (Forall (clonable_generic lp64_debug) (sc_ext PropClone.sample_scop)) as Hl by apply H.
  destruct (avail_generics lp64_debug _ Hl ∅) as (h & _ & p & Hp). clear H Hl. 
  destruct (@osl_generic_sprint lp64_debug (sc_ext PropClone.sample_scop)) as [text| | |] eqn:E; try (vm_compute in E; discriminate). exists h, p, text. clear E. split_and!; [exists h; split; [done|exact Hp]|vm_compute; discriminate|reflexivity].
Qed.
(** A comment and a symbol with a comment inside are printed and released: nothing is left. *)
Definition generics_run {cfg : config} {al : Allocator obj} : oprog str :=
  u <== malloc (BStr (lit "comment")) ;; i <== malloc (BIface u (code KComment) NULL) ;;
  t <== malloc (BStr (lit "hello" ++ [c_nl])) ;; c <== malloc (BHolder t) ;;
  g <== osl_generic_shell_f c i ;;
  inner <== osl_generic_clone_f g ;;
  u2 <== malloc (BStr (lit "symbols")) ;; i2 <== malloc (BIface u2 (code KSymbols) NULL) ;;
  s <== osl_symbols_malloc_f ;; put s (BSymbols 3 1 2 inner NULL NULL NULL NULL) ;;==
  g2 <== osl_generic_shell_f s i2 ;;
  e <== osl_generic_add_f g g2 ;;
  text <== osl_generic_print_h e ;;
  osl_generic_free_f e ;;== ret text.
Definition run_comment : str := lit "<comment>" ++ [c_nl] ++ lit "hello" ++ [c_nl] ++ lit "</comment>" ++ [c_nl].
Definition run_text : str :=
  run_comment ++ [c_nl] ++ lit "<symbols>" ++ [c_nl] ++ lit "# Number of symbols" ++ [c_nl] ++ lit "1" ++ [c_nl]
  ++ lit "# ===========================================" ++ [c_nl] ++ lit "# 1 Data for symbol number 1 " ++ [c_nl]
  ++ lit "# 1.1 Symbol type" ++ [c_nl] ++ lit "Array" ++ [c_nl] ++ [c_nl] ++ lit "# 1.2 Generated Boolean" ++ [c_nl] ++ lit "1" ++ [c_nl]
  ++ [c_nl] ++ lit "# 1.3 Number of dimensions" ++ [c_nl] ++ lit "2" ++ [c_nl] ++ [c_nl] ++ lit "# 1.4 Identifier" ++ [c_nl] ++ run_comment
  ++ [c_nl] ++ lit "# 1.5 Datatype" ++ [c_nl] ++ [c_nl] ++ lit "# 1.6 Scope" ++ [c_nl] ++ [c_nl] ++ lit "# 1.7 Extent" ++ [c_nl] ++ lit "</symbols>" ++ [c_nl].
Example C63_run : match @generics_run lp64_debug (bump_allocator obj) ∅ with Ok (t, h) => t = run_text ∧ map_to_list h = [] | _ => False end.
Proof. vm_compute. split; reflexivity. Qed.
