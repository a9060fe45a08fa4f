(** * PropMalloc: what the allocation functions give (C50, C51) *)
From stdpp Require Import gmap.
From iris.proofmode Require Import tactics.
From Coq Require Import ZifyBool ZifyNat.
From Verif Require Import Base Spec IntModel VectorModel RelationModel RelSpec StringsModel ExtModel HeapModel HeapObjects HeapSpec HeapLogic HeapProofs PayloadModel PayloadSpec PayloadProofs PayloadProofs2 PayloadProofs3 PayloadProofs5 PayloadProofs6 PayloadProofs7 PropHeap PropPayload RelTextModel ScopModel FullModel FullSpec FullProofs FullProofs2 FullProofs4 PropFull.
Local Open Scope string_scope.
Local Open Scope list_scope.
Local Open Scope Z_scope.

(** Started with no memory, the function makes the value [x] and nothing else. *)
Definition makes_value {X} (c : oprog ptr) (m : ptr → X → mem) (x : X) : Prop := runs_to c ∅ (λ q h', m q x h').

Ltac finish_block :=
  rewrite /m_text /m_table /m_ints /m_strings /m_str /m_body /m_regions /m_loops /m_unrolls /= ?M_beside ?M_cell ?M_nothing;
  iFrame "P"; repeat iSplit; try (by iPureIntro).
Section P.
Context (cfg : config) (al : Allocator obj).
Lemma makes_block {X} b (m : ptr → X → mem) x : (∀ q, (q ↦ CBlock b : oprop) ⊢ M (m q x)) → makes_value (malloc b) m x.
Proof.
  intros H. apply (runs_intro emp%I (λ q, M (m q x))); [|done|done].
  iIntros "_". iApply wp_malloc. iIntros (q) "P". by iApply H.
Qed.
Theorem C50_malloc :
  makes_value osl_body_malloc_p m_body (Some (Body None None)) ∧
  makes_value osl_extbody_malloc_p m_extbody (Extbody [] None) ∧
  makes_value osl_arrays_malloc_p m_arrays [] ∧
  makes_value osl_comment_malloc_p m_comment None ∧
  makes_value osl_scatnames_malloc_p m_scatnames None ∧
  makes_value osl_coordinates_malloc_p m_coordinates (Coordinates None UNDEFINED UNDEFINED UNDEFINED UNDEFINED UNDEFINED) ∧
  makes_value osl_scatinfos_malloc_p m_scatinfos [] ∧
  makes_value osl_annotation_malloc_p m_annotation (Annotation [] []) ∧
  makes_value osl_region_malloc_p m_regions [Region 0 [] [] [] []] ∧
  makes_value osl_loop_malloc_p m_loops [Loop None [] None 0 None] ∧
  makes_value osl_pluto_unroll_malloc_p m_unrolls [Unroll None false 0] ∧
  makes_value osl_dependence_malloc_p m_dependences [Dependence UNDEFINED UNDEFINED UNDEFINED UNDEFINED UNDEFINED UNDEFINED [] (repeat UNDEFINED 8)] ∧
  makes_value osl_null_malloc_p (λ p _, m_null p) ().
Proof.
  split_and!; apply makes_block; intros q; iIntros "P".
  - iExists (NULL, NULL). by finish_block.
  - iExists (NULL, NULL, NULL). by finish_block.
  - iExists (NULL, NULL, []). by finish_block.
  - iExists NULL. by finish_block.
  - iExists NULL. by finish_block.
  - iExists NULL. by finish_block.
  - iExists (NULL, NULL, NULL). by finish_block.
  - iExists (no_text, no_text, [], []). by finish_block.
  - iExists (no_text, no_text, no_text, no_text, [], [], [], [], NULL). by finish_block.
  - iExists (NULL, NULL, NULL, NULL, NULL). by finish_block.
  - iExists (NULL, NULL). by finish_block.
  - iExists (NULL, NULL). by finish_block.
  - done.
Qed.
Theorem C51_malloc :
  makes_value osl_generic_malloc_f m_generics [Generic None None] ∧
  makes_value osl_symbols_malloc_f m_symbols [Symbol UNDEFINED UNDEFINED UNDEFINED [] [] [] []] ∧
  makes_value osl_statement_malloc_f m_statements [Statement [] [] [] []] ∧
  makes_value osl_scop_malloc_f m_scops [Scop 1 None [] [] [] [] []].
Proof.
  split_and!; apply makes_block; intros q; iIntros "P".
  - iExists NULL. rewrite M_beside. iSplitL; [|by rewrite M_nothing]. iExists (NULL, NULL). by finish_block.
  - iExists NULL. rewrite M_beside. iSplitL; [|by rewrite M_nothing]. iExists (NULL, NULL, NULL, NULL). by finish_block.
  - iExists NULL. rewrite M_beside. iSplitL; [|by rewrite M_nothing]. iExists (NULL, NULL, NULL, NULL). by finish_block.
  - iExists NULL. rewrite M_beside. iSplitL; [|by rewrite M_nothing]. iExists (NULL, NULL, NULL, NULL, NULL, NULL). by finish_block.
Qed.
(** A new interface has no URI and is of no kind. *)
Theorem C51_interface_malloc : runs_to osl_interface_malloc_f ∅ (λ q, somewhere (λ k, cell q (BIface NULL k NULL) ⋆ nothing (∀ kd, code kd ≠ k))).
Proof.
  apply (runs_intro emp%I (λ q, M (somewhere (λ k, cell q (BIface NULL k NULL) ⋆ nothing (∀ kd, code kd ≠ k))))); [|done|done].
  iIntros "_". iApply wp_malloc. iIntros (q) "P". iExists (-1). rewrite M_beside M_cell M_nothing. iFrame "P". iPureIntro. intros []; done.
Qed.
(** A shell around data and an interface, wherever they are: one new block that refers to them, last of its list. *)
Theorem C51_generic_shell : ∀ data interface, runs_to (osl_generic_shell_f data interface) ∅ (λ q, cell q (BGen data interface NULL)).
Proof.
  intros d i. apply (runs_intro emp%I (λ q, M (cell q (BGen d i NULL)))); [|done|done].
  iIntros "_". unfold osl_generic_shell_f. iApply wp_bind. iApply wp_malloc. iIntros (q) "P". iApply wp_bind. iApply wp_put. iFrame "P". iIntros "P". iApply wp_ret. rewrite M_cell. iFrame.
Qed.
End P.
Print Assumptions C51_generic_shell.
Print Assumptions C50_malloc.
Print Assumptions C51_malloc.
Print Assumptions C51_interface_malloc.
(** Allocated, filled and freed: nothing is left. *)
Definition malloc_run {al : Allocator obj} : oprog unit :=
  a <== osl_extbody_malloc_p ;; osl_extbody_add_p a 3 4 ;;== s <== osl_scop_malloc_f ;;
  osl_extbody_free_p a ;;== free s.
Example C50_malloc_run : match @malloc_run (bump_allocator obj) ∅ with Ok (_, h) => map_to_list h = [] | _ => False end.
Proof. vm_compute. reflexivity. Qed.
