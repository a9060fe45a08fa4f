(** * PropPrintHeap: printing a relation and the memory (C62)

    Printing allocates a buffer that it grows by moving it, the names of the columns, the names object when none is given, the
    comments and their expressions, and it changes the sign of coefficients of the relation, in place, for as long as an
    expression is printed.  When it is over the memory is exactly what it was, and the text. *)
From stdpp Require Import gmap.
From iris.proofmode Require Import tactics.
From Coq Require Import ZifyBool ZifyNat.
From Verif Require Import Base IntModel VectorModel RelationModel UtilModel StringsModel ExtModel RelTextModel Spec RelSpec TextSpec LoopLemmas IntProofs RelationProofs RelTextProofs HeapModel HeapObjects HeapSpec HeapLogic HeapProofs ScopModel ScopSpec PayloadModel PayloadSpec PayloadProofs PayloadProofs2 PayloadProofs3 PayloadProofs5 PayloadExists PropHeap PropHeap2 PrintSpec PrintProofs MatModel MatSpec MatProofs MatProofs2 MatProofs3 MatProofs4 MatProofs5 MatProofs6 PropMat FullModel FullSpec FullExists FullProofs FullProofs4 ExprSpec PropExpr2 PrintHeapModel PrintHeapSpec PrintHeapProofs PrintHeapProofs2 PrintHeapProofs3.
Local Open Scope string_scope.
Local Open Scope list_scope.
Local Open Scope Z_scope.
Notation loop := HeapModel.loop.
Notation cell := PayloadSpec.cell.

Section P.
Context (cfg : config) (al : Allocator obj).

(** The text is a new string, and nothing else has changed, been lost or left behind. *)
Theorem C62_spprint : ∀ h a u pn on, within h (m_relation a u) → names_given h pn on → Forall dims_in_order u →
  agrees (osl_relation_spprint u on) (osl_relation_spprint_h a pn) h (λ text p, exactly h ⋆ m_str p (Some text)).
Proof.
  intros h a u pn on Su Hn Hd. apply (agrees_new h (λ p text, m_str p (Some text))). intros Q. iIntros "[H K]". iApply sim_spprint; [exact Su|exact Hn|exact Hd|]. iFrame "H". iIntros (t p) "H P". iApply ("K" with "H"). cbn [m_str]. rewrite M_cell. iFrame.
Qed.
Theorem C62_spprint_polylib : ∀ h a u pn on, within h (m_relation a u) → names_given h pn on → Forall dims_in_order u →
  agrees (osl_relation_spprint_polylib u on) (osl_relation_spprint_polylib_h a pn) h (λ text p, exactly h ⋆ m_str p (Some text)).
Proof.
  intros h a u pn on Su Hn Hd. apply (agrees_new h (λ p text, m_str p (Some text))). intros Q. iIntros "[H K]". iApply sim_polylib; [exact Su|exact Hn|exact Hd|]. iFrame "H". iIntros (t p) "H P". iApply ("K" with "H"). cbn [m_str]. rewrite M_cell. iFrame.
Qed.
(** The functions that write to a file: the text is written, the memory is what it was. *)
Theorem C62_pprint : ∀ h a u pn on, within h (m_relation a u) → names_given h pn on → Forall dims_in_order u →
  agrees (osl_relation_spprint u on) (osl_relation_pprint_h a pn) h (λ text written, exactly h ⋆ nothing (written = text)).
Proof.
  intros h a u pn on Su Hn Hd. apply (agrees_intro (own h) (λ t w, own h ∗ <affine> ⌜w = t⌝)%I); [|done|].
  - iIntros "H". iApply (sim_pprint h a u pn on); [exact Su|exact Hn|exact Hd|]. iFrame "H". iIntros (t) "H". by iFrame.
  - intros t w h' (h1 & h2 & -> & Hdj & H1 & H2). exists h1, h2. split_and!; [done|done|exact H1|]. exact H2.
Qed.
(** The names of the columns: one string each, in an array that a null pointer ends. *)
Theorem C62_strings : ∀ h a r next pn n, within h (m_part a r next) → names_at h pn n → dims_in_order r →
  agrees (osl_relation_strings r n) (osl_relation_strings_h a pn) h
    (λ l p, exactly h ⋆ nothing (zlength l = ncols r) ⋆ somewhere (λ ps, cell p (BPtrs (map Some (ps ++ [NULL]))) ⋆ m_strs ps (map Some l))).
Proof.
  intros h a r next pn n Sp Hn Hd. apply (agrees_intro (own h) (λ l p, own h ∗ M (nothing (zlength l = ncols r)) ∗ M (m_name_array p l))%I); [|done|].
  - iIntros "H". iApply sim_relation_strings; [exact Sp|exact Hn|exact Hd|]. iFrame "H". iIntros (l p) "H %Hl N". rewrite M_nothing. by iFrame.
  - intros l p h' (h1 & h2 & -> & Hdj & H1 & (h3 & h4 & -> & Hdj' & H3 & H4)). exists h1, (h3 ∪ h4). split_and!; [done|done|exact H1|]. exists h3, h4. split_and!; [done|done|exact H3|exact H4].
Qed.
(** The expression of a row, with or without the opposite of the coefficients: the relation is as it was afterwards. *)
Theorem C62_subexpression : ∀ h names a r next row start stop oppose p l, within h (m_part a r next) → h ##ₘ names →
  somewhere (λ ps, cell p (BPtrs (map Some (ps ++ [NULL]))) ⋆ m_strs ps (map Some l)) names →
  agrees (osl_relation_subexpression r row start stop oppose l) (osl_relation_subexpression_h a row start stop oppose p) (h ∪ names)
    (λ text q, exactly (h ∪ names) ⋆ m_str q (Some text)).
Proof.
  intros h ht a r next row start stop oppose p l Sp Hdj Hp. apply (agrees_new (h ∪ ht) (λ p text, m_str p (Some text))). intros Q. iIntros "[H K]". iAssert (own h ∗ own ht)%I with "[H]" as "[H T]"; [by rewrite -own_union|].
  iApply (sim_subexpression h ht a r next p l); [exact Sp|by apply sees_self|]. iFrame "H T". iIntros (t q) "H T P". iApply ("K" with "[H T]"); [rewrite own_union; [iFrame|done]|]. cbn [m_str]. rewrite M_cell. iFrame.
Qed.
End P.
Print Assumptions C62_spprint.
Print Assumptions C62_spprint_polylib.
Print Assumptions C62_pprint.
Print Assumptions C62_strings.
Print Assumptions C62_subexpression.

(** ** An access without output dimension: the name "Arr" is lost *)
Definition no_names : names := Names None None None None None.
Definition arr_relation : relation := mkrel TYPE_READ PRECISION_DP 0 2 0 0 0 0 [].
Definition arr_heap : heap obj :=
  list_to_map [(1, CBlock (BRel arr_relation NULL NULL)); (2, CBlock (BNames 3 4 5 6 7)); (3, CBlock (BStrings NULL)); (4, CBlock (BStrings NULL)); (5, CBlock (BStrings NULL));
    (6, CBlock (BStrings NULL)); (7, CBlock (BStrings NULL))].
(** The memory in which the program was started, and one block more. *)
Theorem C62_leak_refuted : ∃ h a pn u n text h', within h (@m_relation lp64_debug a u) ∧ names_given h pn (Some n) ∧
  osl_relation_spprint (cfg := lp64_debug) u (Some n) = Ok text ∧
  osl_relation_pprint_h (cfg := lp64_debug) (al := bump_allocator obj) a pn h = Ok (text, h') ∧ h ⊆ h' ∧ size h' = S (size h).
Proof.
  exists arr_heap, 1, 2, [arr_relation], no_names. 
  assert (∀ p b, (arr_heap !! p = Some (CBlock b) → p ≠ NULL → within arr_heap (cell p b)))%type as W.
  { intros p b Hp Hn. exists {[p := CBlock b]}. split; [by apply map_singleton_subseteq_l|]. by split. }
  destruct (osl_relation_spprint (cfg := lp64_debug) [arr_relation] (Some no_names)) as [text| | |] eqn:E; try (vm_compute in E; discriminate).
  exists text. 
  destruct (osl_relation_pprint_h (cfg := lp64_debug) (al := bump_allocator obj) 1 2 arr_heap) as [[w h']| | |] eqn:E'; try (vm_compute in E'; discriminate).
  exists h'. split_and!.
  - clear E E'. destruct (W 1 (BRel arr_relation NULL NULL)) as (hs & Hs & Hc); [done|done|]. exists hs. split; [done|]. exists NULL. exists hs, ∅. split_and!; [by rewrite right_id_L|apply map_disjoint_empty_r| |by split].
    exists NULL. exists hs, ∅. split_and!; [by rewrite right_id_L|apply map_disjoint_empty_r|exact Hc|]. exists ∅, ∅. split_and!; [by rewrite left_id_L|apply map_disjoint_empty_r|split; [done|cbn; lia]|]. by split.
  - clear E E'. split; [done|]. exists 3, 4, 5, 6, 7. split; [done|]. split_and!; by apply W.
  - reflexivity.
  - assert (osl_relation_spprint (cfg := lp64_debug) [arr_relation] (Some no_names) = match osl_relation_pprint_h (cfg := lp64_debug) (al := bump_allocator obj) 1 2 arr_heap with Ok (w, _) => Ok w | _ => UB end) as X by (vm_compute; reflexivity).
    rewrite E E' in X. clear -X. congruence.
  - assert (List.map (λ p, h' !! p) [1; 2; 3; 4; 5; 6; 7] = List.map (λ p, arr_heap !! p) [1; 2; 3; 4; 5; 6; 7])%type as X.
    { apply (f_equal (λ x, match x with Ok (_, h) => List.map (λ p, h !! p) [1; 2; 3; 4; 5; 6; 7] | _ => [] end)) in E'. clear -E'. cbv beta iota in E'. rewrite -E'. vm_compute. reflexivity. }
    clear -X. apply map_subseteq_spec. intros p v Hp. assert (In p [1; 2; 3; 4; 5; 6; 7]) as Hi.
    { apply elem_of_list_to_map_2, elem_of_list_In in Hp. cbn in Hp. repeat (destruct Hp as [[= <- _] | Hp]; [cbn; tauto|]). destruct Hp. }
    rewrite -Hp. exact (ext_in_map X p Hi).
  - apply (f_equal (λ x, match x with Ok (_, h) => size h | _ => O end)) in E'. clear -E'. cbv beta iota in E'. rewrite -E'. vm_compute. reflexivity.
Qed.
Print Assumptions C62_leak_refuted.

(** ** Relations that can be printed (C20): the text is there, the memory is as it was *)
Lemma coherent_in_order r : coherent_dims r → dims_in_order r.
Proof.
  intros (H1 & H2 & H3 & H4 & _ & _ & _ & H5). split_and!; try done. intros Ha. apply H5. revert Ha. unfold osl_relation_is_access, access_type. intros Ha. repeat (apply orb_prop in Ha as [Ha | Ha]); lia.
Qed.
Theorem C62_prints : ∀ (cfg : config) (al : Allocator obj) k t h a u, config_ok cfg → 1 ≤ k → u ≠ [] → zlength u < 2 ^ 31 - 1 →
  Forall (printable cfg k 12) u → Forall (λ r, rtype r = t) u → arrays_known u (2 ^ 31 - 1) → within h (m_relation a u) →
  ∃ text, osl_relation_sprint u = Ok text ∧
    runs_to (osl_relation_pprint_h a NULL) h (λ written, exactly h ⋆ nothing (written = text)) ∧
    runs_to (osl_relation_sprint_h a) h (λ p, exactly h ⋆ m_str p (Some text)).
Proof.
  intros cfg al k t h a u Hc Hk Hne Hl Hp Ht Ha Su. destruct (C20_sprints cfg k t u Hc Hk Hne Hl Hp Ht Ha) as (text & E & _). exists text. split; [done|].
  assert (Forall dims_in_order u) as Hd. { revert Hp. apply Forall_impl. intros r Hr. apply coherent_in_order, Hr. }
  pose proof (C62_pprint cfg al h a u NULL None Su eq_refl Hd) as H1. pose proof (C62_spprint cfg al h a u NULL None Su eq_refl Hd) as H2. unfold osl_relation_sprint in E. rewrite E in H1, H2. done.
Qed.
Print Assumptions C62_prints.
Example C62_witness : ∃ h a, within h (@m_relation lp64_debug a ex_access) ∧ Forall dims_in_order ex_access ∧ Forall (printable lp64_debug 3 12) ex_access ∧ arrays_known ex_access (2 ^ 31 - 1).
Proof.
  destruct C20_ex_printable as (W & _ & Ha & _). assert (wf_union lp64_debug ex_access) as Wf. { revert W. apply Forall_impl. intros r Hr. apply Hr. }
  destruct (avail_relation lp64_debug ex_access Wf ∅) as (h & _ & a & H). exists h, a. split_and!; [exists h; split; [done|exact H]| |done|done].
  revert W. apply Forall_impl. intros r Hr. apply coherent_in_order, Hr.
Qed.
(** A relation with GMP coefficients, one to be opposed, printed and released: nothing is left. *)
Definition print_run (p : Z) : oprog str :=
  relation <== @osl_relation_pmalloc_m lp64_debug (bump_allocator obj) p 2 4 ;;
  '(r, m, next) <== get_part relation ;;
  put relation (BRel (mkrel TYPE_WRITE p 2 4 1 0 0 1 []) m next) ;;==
  a <== entry m 0 1 ;; @osl_int_set_si_m lp64_debug p a (-1) ;;==
  a <== entry m 0 3 ;; @osl_int_set_si_m lp64_debug p a 5 ;;==
  a <== entry m 1 0 ;; @osl_int_set_si_m lp64_debug p a 1 ;;==
  a <== entry m 1 2 ;; @osl_int_set_si_m lp64_debug p a (-7) ;;==
  t <== @osl_relation_pprint_h lp64_debug (bump_allocator obj) relation NULL ;;
  @osl_relation_free_m lp64_debug relation ;;== ret t.
Definition printed_run : str :=
  lit "WRITE" ++ [c_nl] ++ lit "2 4 1 0 0 1" ++ [c_nl] ++ lit "# e/i| Arr| P1 |  1  " ++ [c_nl] ++
  lit "   0   -1    0    5    ## Arr == A5" ++ [c_nl] ++ lit "   1    0   -7    0    ## -7*P1 >= 0" ++ [c_nl].
Example C62_run_mp : match print_run PRECISION_MP ∅ with Ok (t, h) => t = printed_run ∧ map_to_list h = [] | _ => False end.
Proof. vm_compute. split; reflexivity. Qed.
Example C62_run_sp : match print_run PRECISION_SP ∅ with Ok (t, h) => t = printed_run ∧ map_to_list h = [] | _ => False end.
Proof. vm_compute. split; reflexivity. Qed.
