(** * PropSaveHeap2: saving scops and the memory (C64)

    Relations, lists of relations, statements and scops are printed to a file: names are generated or copied, replaced for a while by
    those of the bodies, of the parameters and of the arrays, and released; the text of each relation is a string that is released.
    When it is over the memory is exactly what it was. *)
From stdpp Require Import gmap.
From iris.proofmode Require Import tactics.
From Coq Require Import ZifyBool ZifyNat.
From Verif Require TextSpec SaveSpec PrintSpec ScopSpec PropPrint PropReadHeap ReadHeapModel PropScop PropScop2 PropPrintHeap.
From Verif Require Import Base IntModel VectorModel RelationModel UtilModel StringsModel ExtModel RelTextModel Spec RelSpec HeapModel HeapObjects HeapSpec HeapLogic HeapProofs ScopModel CloneSpec PropClone PayloadModel PayloadSpec PayloadProofs PayloadProofs2 PayloadProofs3 PayloadProofs5 PayloadExists PropHeap MatModel MatSpec MatProofs MatProofs4 PropMat FullModel FullSpec FullExists FullProofs FullProofs2 FullProofs4 PropFull PrintHeapModel PrintHeapSpec SaveHeapModel SaveHeapSpec SaveHeapProofs SaveHeapProofs2 SaveHeapProofs3 SaveHeapProofs4 SaveHeapProofs5.
Local Open Scope string_scope.
Local Open Scope list_scope.
Local Open Scope Z_scope.
Notation loop := HeapModel.loop.
Notation cell := PayloadSpec.cell.

Section P.
Context (cfg : config) (al : Allocator obj).

Lemma agrees_sims {A} h (v : res A) c : sims h v c → agrees v c h (λ x y, exactly h ⋆ nothing (y = x)).
Proof.
  intros H. apply (agrees_intro (own h) (λ t w, own h ∗ <affine> ⌜w = t⌝)%I); [|done|].
  - iIntros "H". iApply H. iFrame "H". iIntros (t) "H". by iFrame.
  - intros t w h' (h1 & h2 & -> & Hdj & H1 & H2). exists h1, h2. split_and!; [done|done|exact H1|]. exact H2.
Qed.
Lemma sims_read {A} h c (x : A) : reads h c x → sims h (Ok x) c.
Proof. intros H Q. iIntros "[H K]". cbn [sim]. iApply H. iFrame "H". iIntros "H". by iApply "K". Qed.

(** ** Printing *)
Theorem C64_scop_print : ∀ h p l, within h (m_scop_list p l) → Forall scop_in_order l →
  agrees (osl_scop_print l) (osl_scop_print_h p) h (λ text written, exactly h ⋆ nothing (written = text)).
Proof. intros h p l Sp Hl. by apply agrees_sims, sims_scop_print. Qed.
Theorem C64_statement_pprint : ∀ h p l pn on, within h (m_stmts p l) → names_given h pn on → Forall stmt_in_order l →
  agrees (osl_statement_pprint l on) (osl_statement_pprint_h p pn) h (λ text written, exactly h ⋆ nothing (written = text)).
Proof. intros h p l pn on Sp Hn Hl. by apply agrees_sims, sims_statement_pprint. Qed.
Theorem C64_statement_print : ∀ h p l, within h (m_stmts p l) → Forall stmt_in_order l →
  agrees (osl_statement_pprint l None) (osl_statement_print_h p) h (λ text written, exactly h ⋆ nothing (written = text)).
Proof. intros h p l Sp Hl. by apply agrees_sims, sims_statement_pprint. Qed.
Theorem C64_list_pprint_elts : ∀ h p l pn on, within h (m_relations p l) → names_given h pn on → Forall (Forall dims_in_order) l →
  agrees (osl_relation_list_pprint_elts l on) (osl_relation_list_pprint_elts_h p pn) h (λ text written, exactly h ⋆ nothing (written = text)).
Proof. intros h p l pn on Sp Hn Hl. by apply agrees_sims, sims_pprint_elts. Qed.
(** The names of the arrays: a new array of strings; nothing on NULL. *)
Theorem C64_arrays_to_strings : ∀ h p oa, within h (match oa with None => nothing (p = NULL) | Some a => m_arrays p a end) →
  agrees (osl_arrays_to_strings oa) (osl_arrays_to_strings_h p) h (λ names q, exactly h ⋆ m_strings q names).
Proof.
  intros h p oa Sp. apply (agrees_new h (λ q x, m_strings q x)). intros Q. apply (sim_arrays_to_strings h p oa Q Sp).
Qed.

(** ** Counting and checking *)
Theorem C64_scop_integrity_check : ∀ h p l, within h (m_scop_list p l) →
  agrees (osl_scop_integrity_check l) (osl_scop_integrity_check_h p) h (λ x y, exactly h ⋆ nothing (y = x)).
Proof. intros h p l Sp. by apply agrees_sims, sims_scop_check. Qed.
Theorem C64_statement_integrity_check : ∀ h p l ep, within h (m_stmts p l) →
  agrees (osl_statement_integrity_check l ep) (osl_statement_integrity_check_h p ep) h (λ x y, exactly h ⋆ nothing (y = x)).
Proof. intros h p l ep Sp. by apply agrees_sims, sims_statement_check. Qed.
Theorem C64_statement_attributes : ∀ h p l a, within h (m_stmts p l) →
  agrees (osl_statement_get_attributes l a) (osl_statement_get_attributes_h p a) h (λ x y, exactly h ⋆ nothing (y = x)).
Proof. intros h p l a Sp. by apply agrees_sims, sims_statement_attributes. Qed.
Theorem C64_numbers : ∀ h p l q s, within h (m_relations p l) → within h (m_stmts q s) →
  runs_to (osl_relation_list_count_h p) h (λ n, exactly h ⋆ nothing (n = osl_relation_list_count l)) ∧
  runs_to (osl_statement_number_h q) h (λ n, exactly h ⋆ nothing (n = zlength s)).
Proof.
  intros h p l q s Sp Sq. split.
  - exact (agrees_sims h _ _ (sims_read h _ _ (reads_count h p l Sp))).
  - exact (agrees_sims h _ _ (sims_read h _ _ (reads_statement_number h q s Sq))).
Qed.

(** ** Scops that can be saved (C53): the text is there, the memory is as it was; the text reads back beside it *)
Lemma fits_in_order m s : PrintSpec.scop_fits m s → scop_in_order s.
Proof.
  intros (H & _). assert (Forall (Forall dims_in_order) (ScopSpec.relations_of_scop s)) as Hd.
  { revert H. apply Forall_impl. intros u [_ Hu]. revert Hu. apply Forall_impl. intros r (Hr & _). by apply PropPrintHeap.coherent_in_order. }
  clear H. unfold ScopSpec.relations_of_scop in Hd. inversion Hd as [|x y Hx Hy]; subst. split; [done|]. clear Hd Hx. unfold ScopSpec.relations_of_statements in Hy.
  induction (sc_stmts s) as [|st l IH]; [constructor|]. cbn [flat_map] in Hy. apply Forall_app in Hy as [H1 H2]. constructor; [|by apply IH].
  inversion H1 as [|? ? Ha H3]; subst. inversion H3; subst. done.
Qed.
Theorem C64_saves : ∀ p m l h a, config_ok cfg → supported cfg p → 16 ≤ m →
  Forall (SaveSpec.scop_ok cfg p default_registry) l → Forall ScopSpec.c_sizes l → Forall ScopSpec.coherent_scop l → Forall (PrintSpec.scop_fits m) l →
  within h (m_scop_list a l) →
  ∃ text, osl_scop_print l = Ok text ∧ runs_to (osl_scop_print_h a) h (λ written, exactly h ⋆ nothing (written = text)).
Proof.
  intros p m l h a Hc Hp Hm Hok Hsz Hco Hf Sa. destruct (PropPrint.C53_prints cfg p m l Hc Hp Hm Hok Hsz Hco Hf) as (text & E & _). exists text. split; [done|].
  assert (Forall scop_in_order l) as Hd. { revert Hf. apply Forall_impl. intros s. apply fits_in_order. }
  pose proof (C64_scop_print h a l Sa Hd) as H. rewrite E in H. exact H.
Qed.
(** Saving and reading: a copy beside the original, and nothing else. *)
Theorem C64_save_read : ∀ env p m l h a, config_ok cfg → supported cfg p → osl_util_get_precision env = p → 16 ≤ m →
  Forall (SaveSpec.scop_ok cfg p default_registry) l → Forall ScopSpec.c_sizes l → Forall ScopSpec.coherent_scop l → Forall (PrintSpec.scop_fits m) l →
  within h (m_scop_list a l) →
  runs_to (t <== osl_scop_print_h a ;; ReadHeapModel.osl_scop_read_h env (File t false)) h
    (λ x h', snd x = File [] true ∧ (exactly h ⋆ m_scops (fst x) (List.map SaveSpec.reread_scop l)) h').
Proof.
  intros env p m l h a Hc Hp He Hm Hok Hsz Hco Hf Sa. destruct (PropPrint.C53_prints cfg p m l Hc Hp Hm Hok Hsz Hco Hf) as (text & E & Hs).
  destruct (C64_saves p m l h a Hc Hp Hm Hok Hsz Hco Hf Sa) as (text' & E' & Hr). rewrite E in E'. injection E' as <-.
  destruct (PropReadHeap.C60_printed cfg al env p h l text Hc Hp He Hok E Hs) as [R _].
  intros hf Hd. destruct (Hr hf Hd) as (w & h' & E1 & Hd' & h1 & h2 & -> & D & H1 & H2). destruct H2 as [H2 H3]. change (h1 = h) in H1. subst h1 h2 w. rewrite right_id_L in E1, Hd'.
  destruct (R hf Hd) as (x & h2 & E2 & D2 & H2). exists x, h2. split_and!; [|done|exact (proj1 H2)|exact (proj2 H2)]. unfold pbind. rewrite E1. exact E2.
Qed.

(** ** Every scop that can be cloned is somewhere in memory *)
Lemma avail_element u n : wf_union cfg u → avail (∃ p, M (m_element p u n))%I.
Proof.
  intros Hu. eapply avail_mono; [|exact (avail_obj (λ e, CList e n) _ (avail_relation cfg u Hu))].
  iIntros "(%p & %e & P & R)". iExists p. unfold m_element. rewrite M_somewhere. iExists e. rewrite M_beside M_node. iFrame.
Qed.
Lemma avail_relations l : Forall (wf_union cfg) l → avail (∃ p, M (m_relations p l))%I.
Proof. intros H. apply avail_chain. revert H. apply Forall_impl. intros u Hu n. by apply avail_element. Qed.
Lemma avail_stmt s n : clonable_statement cfg s → avail (∃ p, M (m_stmt p s n))%I.
Proof.
  intros (Hd & Hs & Ha & [He _]).
  eapply avail_mono; [|exact (avail_block (λ z : ptr * (ptr * (ptr * ptr)), BStmt z.1 z.2.1 z.2.2.1 z.2.2.2 n) _
    (avail_pair _ _ (avail_relation cfg _ Hd) (avail_pair _ _ (avail_relation cfg _ Hs)
      (avail_pair _ _ (avail_relations _ Ha) (avail_generics cfg _ He)))))].
  iIntros "(%p & %z & H)". iExists p. unfold m_stmt. rewrite M_somewhere. destruct z as [a [b [c e]]]. iExists (a, b, c, e). rewrite !M_beside M_cell. iFrame.
Qed.
Lemma avail_stmts l : Forall (clonable_statement cfg) l → avail (∃ p, M (m_stmts p l))%I.
Proof. intros H. apply avail_chain. revert H. apply Forall_impl. intros s Hs n. by apply avail_stmt. Qed.
Lemma avail_scop_node s n : clonable_scop cfg s → avail (∃ p, M (m_scop_node p s n))%I.
Proof.
  intros (Hx & [Hp _] & Ht & _ & [He _]).
  eapply avail_mono; [|exact (avail_block (λ z : ptr * (ptr * (ptr * (ptr * (ptr * ptr)))), BScop (sc_version s) z.1 z.2.1 z.2.2.1 z.2.2.2.1 z.2.2.2.2.1 z.2.2.2.2.2 n) _
    (avail_pair _ _ (avail_str (sc_language s)) (avail_pair _ _ (avail_relation cfg _ Hx) (avail_pair _ _ (avail_generics cfg _ Hp) (avail_pair _ _ (avail_stmts _ Ht)
      (avail_pair _ _ (avail_ifaces (sc_registry s)) (avail_generics cfg _ He)))))))].
  iIntros "(%p & %z & H)". iExists p. unfold m_scop_node. rewrite M_somewhere. destruct z as [a [b [c [d [f e]]]]]. iExists (a, b, c, d, f, e). rewrite !M_beside M_cell. iFrame.
Qed.
Theorem C64_values_exist : ∀ l hf, Forall (clonable_scop cfg) l → ∃ h p, h ##ₘ hf ∧ m_scop_list p l h.
Proof.
  intros l hf H. assert (avail (∃ p, M (m_scop_list p l))%I) as A. { apply avail_chain. revert H. apply Forall_impl. intros s Hs n. by apply avail_scop_node. }
  destruct (A hf) as (h & Hd & p & Hp). by exists h, p.
Qed.
End P.
(** The assumptions of all of them at once. *)
Definition C64_theorems :=
  (@C64_scop_print, @C64_statement_pprint, @C64_statement_print, @C64_list_pprint_elts, @C64_arrays_to_strings, @C64_scop_integrity_check, @C64_statement_integrity_check, @C64_statement_attributes, @C64_numbers, @C64_saves, @C64_save_read, @C64_values_exist).
Print Assumptions C64_theorems.

(** Two scops with bodies, parameters, arrays and symbols (C44) are somewhere in memory, are in order and have a text. *)
Definition save_scop : scop :=
  Scop (sc_version sample_scop) (sc_language sample_scop) (sc_context sample_scop) (sc_params sample_scop) (sc_stmts sample_scop) (sc_registry sample_scop)
    [Generic (Some (osl_interface_of KSymbols)) (Some sample_symbols); Generic (Some (osl_interface_of KArrays)) (Some (DArrays [(1, lit "A"); (2, lit "B")]))].
Example C64_witness : ∃ h p text, within h (@m_scop_list lp64_debug p [save_scop; save_scop]) ∧ Forall scop_in_order [save_scop; save_scop] ∧
  @osl_scop_print lp64_debug [save_scop; save_scop] = Ok text.
Proof.
  assert (clonable_scop lp64_debug save_scop) as H.
  { destruct C44_witness as [(Hx & Hp & Ht & Hr & [He Hn]) _]. split; [exact Hx|]. split; [exact Hp|]. split; [exact Ht|]. split; [exact Hr|]. split; [|exact Hn].
    clear -He. cbn [sc_ext sample_scop] in He. inversion He as [|x y H1 H2]; subst. constructor; [exact H1|]. constructor; [exact I|constructor]. }
  assert (Forall (clonable_scop lp64_debug) [save_scop; save_scop]) as Hl by (constructor; [exact H|constructor; [exact H|constructor]]). clear H.
  destruct (C64_values_exist lp64_debug _ ∅ Hl) as (h & p & _ & Hp). clear Hl.
  destruct (@osl_scop_print lp64_debug [save_scop; save_scop]) as [text| | |] eqn:E; try (vm_compute in E; discriminate). exists h, p, text. clear E. split_and!; [exists h; split; [done|exact Hp]| |reflexivity].
  assert (scop_in_order save_scop) as X; [|constructor; [exact X|constructor; [exact X|constructor]]].
  split; [|constructor; [|constructor]].
  - constructor; [|constructor]. unfold dims_in_order. vm_compute. intuition discriminate.
  - split; [|split]; (constructor; [|constructor]); try (constructor; [|constructor]); unfold dims_in_order; vm_compute; intuition discriminate.
Qed.
(** The hypotheses of C64_saves. *)
Example C64_saves_witness : ∀ h a, within h (@m_scop_list lp64_debug a [PropScop2.wr_scop; PropScop.ex_scop]) →
  ∃ text, @osl_scop_print lp64_debug [PropScop2.wr_scop; PropScop.ex_scop] = Ok text ∧
    runs_to (@osl_scop_print_h lp64_debug (bump_allocator obj) a) h (λ written, exactly h ⋆ nothing (written = text)).
Proof.
  intros h a Sa. destruct PropPrint.C53_witness_fits as (F & C & Z). destruct PropScop2.C35_scop_ok as [K _].
  apply (C64_saves lp64_debug (bump_allocator obj) 64 16); try assumption; [now right|right; now left|lia].
Qed.
(** On concrete memory: a scop with a parameter, arrays and a statement with an iterator; after printing, the memory is what it was and
    the text is the one of C35. *)
Definition new_relation (r : relation) (values : list (Z * Z * Z)) : oprog ptr :=
  relation <== @osl_relation_pmalloc_m lp64_debug (bump_allocator obj) (rprec r) (nrows r) (ncols r) ;;
  '(_, m, next) <== get_part relation ;;
  put relation (BRel (bare r) m next) ;;==
  fold_right (λ x c, a <== entry m x.1.1 x.1.2 ;; @osl_int_set_si_m lp64_debug (rprec r) a x.2 ;;== c) (ret relation) values.
Notation new b := (@malloc (bump_allocator obj) b).
Definition new_generic (k : kind) (data : ptr) : oprog ptr :=
  u <== new (BStr (uri_of k)) ;; i <== new (BIface u (code k) NULL) ;; @osl_generic_shell_f (bump_allocator obj) data i.
Definition new_strings (l : list str) : oprog ptr :=
  t <== new (BPtrs (repeat (Some NULL) (S (List.length l)))) ;;
  fold_right (λ x c, s <== new (BStr (snd x)) ;; set_ptr t (fst x) s ;;== c) (new (BStrings t)) (combine (List.seq 0 (List.length l)) l).
Definition run_context := mkrel TYPE_CONTEXT PRECISION_DP 1 3 0 0 0 1 [[1; 1; -2]].
Definition run_domain := mkrel TYPE_DOMAIN PRECISION_MP 1 4 1 0 0 1 [[1; -1; 1; 0]].
Definition run_scattering := mkrel TYPE_SCATTERING PRECISION_MP 1 5 1 1 0 1 [[0; -1; 1; 0; 0]].
Definition run_access := mkrel TYPE_WRITE PRECISION_SP 2 6 2 1 0 1 [[0; -1; 0; 0; 0; 2]; [0; 0; -1; 1; 0; 0]].
Definition run_scop : scop :=
  Scop 1 (Some (lit "C")) [run_context] [Generic (Some (osl_interface_of KStrings)) (Some (DStrings (Some [lit "N"])))]
    [Statement [run_domain] [run_scattering] [[run_access]] [Generic (Some (osl_interface_of KBody)) (Some (DBody (Body (Some (Some [lit "i"])) (Some (Some [lit "B[i] = 0;"])))))]]
    [] [Generic (Some (osl_interface_of KArrays)) (Some (DArrays [(2, lit "B")]))].
Definition build_run : oprog ptr :=
  context <== new_relation run_context [(0, 0, 1); (0, 1, 1); (0, 2, -2)] ;;
  domain <== new_relation run_domain [(0, 0, 1); (0, 1, -1); (0, 2, 1)] ;;
  scattering <== new_relation run_scattering [(0, 1, -1); (0, 2, 1)] ;;
  access <== new_relation run_access [(0, 1, -1); (0, 5, 2); (1, 2, -1); (1, 3, 1)] ;;
  list <== (λ h, let p := @pick obj (bump_allocator obj) h in Ok (p, <[p := CList access NULL]> h)) ;;
  iterators <== new_strings [lit "i"] ;; expression <== new_strings [lit "B[i] = 0;"] ;;
  body <== new (BBody iterators expression) ;; ext <== new_generic KBody body ;;
  statement <== new (BStmt domain scattering list ext NULL) ;;
  parameters <== new_strings [lit "N"] ;; parameters <== new_generic KStrings parameters ;;
  id <== new (BInts [Some 2]) ;; name <== new (BStr (lit "B")) ;; names <== new (BPtrs [Some name]) ;;
  arrays <== new (BArrays 1 id names) ;; ext <== new_generic KArrays arrays ;;
  language <== new (BStr (lit "C")) ;;
  new (BScop 1 language context parameters statement NULL ext NULL).
Example C64_run : match build_run ∅ with
  | Ok (p, h) => match @osl_scop_print_h lp64_debug (bump_allocator obj) p h with
                 | Ok (t, h') => Ok t = @osl_scop_print lp64_debug [run_scop] ∧ map_to_list h' = map_to_list h ∧ (20 < size h)%nat
                 | _ => False end
  | _ => False end.
Proof. vm_compute. split; [reflexivity|]. split; [reflexivity|]. repeat constructor. Qed.
