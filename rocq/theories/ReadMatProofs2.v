(** * ReadMatProofs2: release, copy and filter of lists, statements and scops with their matrices *)
From stdpp Require Import gmap.
From iris.proofmode Require Import tactics.
From Coq Require Import ZifyBool ZifyNat.
From Verif Require Import Base Spec IntModel VectorModel RelationModel RelSpec LoopLemmas UtilModel StringsModel RelTextModel ExtModel HeapModel HeapObjects HeapSpec HeapLogic HeapProofs PayloadModel PayloadSpec PayloadProofs PayloadProofs2 PayloadProofs3 PayloadProofs4 PayloadProofs5 PayloadProofs6 MatModel MatSpec MatProofs MatProofs2 MatProofs3 MatProofs4 MatProofs5 MatProofs6 ScopModel CloneSpec PropClone IrregHeapProofs FullModel FullSpec FullProofs FullProofs2 FullProofs3 FullProofs4 FullProofs5 ReadHeapProofs SaveHeapModel SaveHeapSpec SaveHeapProofs SaveHeapProofs2 SaveHeapProofs3 ReadMatModel.
Local Open Scope string_scope.
Local Open Scope list_scope.
Local Open Scope Z_scope.
Local Open Scope bi_scope.

Section R.
Context {cfg : config} {al : Allocator obj}.

Lemma M_element p u n : M (m_element p u n) ⊣⊢ ∃ e, p ↦ CList e n ∗ M (m_relation e u).
Proof. unfold m_element. rewrite M_somewhere. apply bi.exist_proper. intros e. by rewrite M_beside M_node. Qed.
Lemma M_relations_nil p : M (m_relations p []) ⊣⊢ <affine> ⌜p = NULL⌝.
Proof. apply (M_chain_nil m_element). Qed.
Lemma M_relations_cons p u l : M (m_relations p (u :: l)) ⊣⊢ ∃ e n, p ↦ CList e n ∗ M (m_relation e u) ∗ M (m_relations n l).
Proof.
  unfold m_relations. rewrite (M_chain_cons m_element). iSplit.
  - iIntros "(%n & P & L)". rewrite M_element. iDestruct "P" as (e) "[P U]". iExists e, n. iFrame.
  - iIntros "(%e & %n & P & U & L)". iExists n. iFrame "L". rewrite M_element. iExists e. iFrame.
Qed.
Lemma relation_null e u : M (m_relation e u) ⊢ <affine> ⌜isnull e = match u with [] => true | _ => false end⌝ ∗ M (m_relation e u).
Proof. apply (M_null (λ u, match u with [] => true | _ => false end) (m_relation e)). intros h. apply sees_relation_null. Qed.
Lemma relations_null p l : M (m_relations p l) ⊢ <affine> ⌜isnull p = match l with [] => true | _ => false end⌝ ∗ M (m_relations p l).
Proof. apply (chain_null m_element element_nonnull). Qed.

(** ** Release *)
Lemma wp_relations_free_loop l : ∀ p fuel (Q : _ → oprop), (List.length l < fuel)%nat → M (m_relations p l) ∗ Q tt ⊢ wp (list_free_loop_m fuel p) Q.
Proof.
  induction l as [|u l IH]; intros p [|fuel] Q Hf; try (cbn in Hf; lia); cbn [list_free_loop_m].
  - rewrite M_relations_nil. iIntros "[-> Q]". by iApply wp_ret.
  - rewrite M_relations_cons. iIntros "[(%e & %n & H & E & L) Q]". iDestruct (isnull_false with "H") as "[%Ep H]". rewrite Ep.
    iApply wp_bind. iApply wp_get_list. iFrame "H". iIntros "H". iApply wp_bind.
    iAssert (wp (if isnull e then ret tt else osl_relation_free_m e) (λ _, emp)) with "[E]" as "W".
    { iDestruct (relation_null with "E") as "[%Ee E]". rewrite Ee. destruct u.
      - rewrite M_relation_nil. iDestruct "E" as "_". by iApply wp_ret.
      - iApply wp_relation_free. by iFrame. }
    iApply wp_wand. iFrame "W". iIntros (_) "_". iApply wp_bind. iApply wp_get_list. iFrame "H". iIntros "H".
    iApply wp_bind. iApply wp_free. iFrame "H". iApply IH; [cbn in Hf; lia|]. iFrame.
Qed.
Lemma wp_relations_free p l (Q : _ → oprop) : M (m_relations p l) ∗ Q tt ⊢ wp (osl_relation_list_free_m p) Q.
Proof.
  iIntros "[L Q]". iDestruct (relations_null with "L") as "[%E L]". unfold osl_relation_list_free_m. rewrite E. destruct l as [|u l].
  - rewrite M_relations_nil. iDestruct "L" as "_". by iApply wp_ret.
  - iCombine "L Q" as "K". iStopProof. apply (wp_loop_on (List.length (u :: l))); [apply relations_size|]. intros n Hn. by apply wp_relations_free_loop.
Qed.
Lemma wp_stmts_free_loop l : ∀ p fuel (Q : _ → oprop), (List.length l < fuel)%nat → Forall (λ t, typed_generics (st_ext t)) l → M (m_stmts p l) ∗ Q tt ⊢ wp (stmt_free_loop_m fuel p) Q.
Proof.
  induction l as [|x l IH]; intros p [|fuel] Q Hf Ht; try (cbn in Hf; lia); cbn [stmt_free_loop_m]; unfold m_stmts.
  - rewrite M_chain_nil. iIntros "[%E K]". subst p. by iApply wp_ret.
  - inversion Ht; subst. rewrite M_chain_cons. iIntros "[(%n & (%w & P) & R) K]". destruct w as [[[d c] a] e]. iDestruct "P" as "(P & D & C & A & E)". rewrite M_cell.
    iDestruct (isnull_false with "P") as "[%Ep P]". rewrite Ep. get "P". iApply wp_bind. iApply wp_relation_free. iFrame "D". iApply wp_bind. iApply wp_relation_free. iFrame "C".
    iApply wp_bind. iApply wp_relations_free. iFrame "A". iApply wp_bind. iApply wp_generic_free; [done|]. iFrame "E". iApply wp_bind. iApply wp_free. iFrame "P".
    iApply IH; [cbn in Hf; lia|done|]. iFrame.
Qed.
Lemma wp_stmts_free p l (Q : _ → oprop) : Forall (λ t, typed_generics (st_ext t)) l → M (m_stmts p l) ∗ Q tt ⊢ wp (osl_statement_free_m p) Q.
Proof. intros Ht. apply (wp_loop_on (List.length l)); [apply stmts_size|]. intros n Hn. by apply wp_stmts_free_loop. Qed.
Lemma wp_scops_free_loop l : ∀ p fuel (Q : _ → oprop), (List.length l < fuel)%nat → Forall typed_scop l → M (m_scop_list p l) ∗ Q tt ⊢ wp (scop_free_loop_m fuel p) Q.
Proof.
  induction l as [|x l IH]; intros p [|fuel] Q Hf Ht; try (cbn in Hf; lia); cbn [scop_free_loop_m]; unfold m_scop_list.
  - rewrite M_chain_nil. iIntros "[%E K]". subst p. by iApply wp_ret.
  - inversion Ht as [|? ? (Tp & Te & Ts) Ht']; subst. rewrite M_chain_cons. iIntros "[(%n & (%w & P) & R) K]". destruct w as [[[[[lg c] pa] st] r] e]. iDestruct "P" as "(P & L & C & A & S & G & E)". rewrite M_cell.
    iDestruct (isnull_false with "P") as "[%Ep P]". rewrite Ep. get "P". iApply wp_bind. iApply wp_free_if_str. iFrame "L". iApply wp_bind. iApply wp_generic_free; [exact Tp|]. iFrame "A".
    iApply wp_bind. iApply wp_relation_free. iFrame "C". iApply wp_bind. iApply wp_stmts_free; [exact Ts|]. iFrame "S". iApply wp_bind. iApply wp_interface_free. iFrame "G".
    iApply wp_bind. iApply wp_generic_free; [exact Te|]. iFrame "E". iApply wp_bind. iApply wp_free. iFrame "P". iApply IH; [cbn in Hf; lia|done|]. iFrame.
Qed.
Lemma wp_scops_free p l (Q : _ → oprop) : Forall typed_scop l → M (m_scop_list p l) ∗ Q tt ⊢ wp (osl_scop_free_m p) Q.
Proof. intros Ht. apply (wp_loop_on (List.length l)); [apply scops_size|]. intros n Hn. by apply wp_scops_free_loop. Qed.

(** ** Links *)
Lemma wp_set_stmts_next p x n n' (Q : _ → oprop) : M (m_stmt p x n) ∗ (M (m_stmt p x n') -∗ Q tt) ⊢ wp (set_stmt_next_b p n') Q.
Proof.
  iIntros "[(%w & A) K]". destruct w as [[[d c] a] e]. iDestruct "A" as "(P & A)". rewrite M_cell. get "P".
  iApply wp_put. iFrame "P". iIntros "P". iApply "K". iExists (d, c, a, e). iSplitL "P"; done.
Qed.
Lemma wp_set_scops_next p x n n' (Q : _ → oprop) : M (m_scop_node p x n) ∗ (M (m_scop_node p x n') -∗ Q tt) ⊢ wp (set_scop_next_b p n') Q.
Proof.
  iIntros "[(%w & A) K]". destruct w as [[[[[lg c] pa] st] r] e]. iDestruct "A" as "(P & A)". rewrite M_cell. get "P".
  iApply wp_put. iFrame "P". iIntros "P". iApply "K". iExists (lg, c, pa, st, r, e). iSplitL "P"; done.
Qed.

(** ** Copies *)
Lemma wp_relation_copy h p u u' (Q : _ → oprop) : sees h (m_relation p u) → osl_relation_clone u = Ok u' → own h ∗ (∀ q, own h -∗ M (m_relation q u') -∗ Q q) ⊢ wp (osl_relation_clone_m p) Q.
Proof.
  intros Hs Hu. assert (Hsim : sim (osl_relation_clone u) (osl_relation_clone_m p) (λ _ q, Q q) ⊢ wp (osl_relation_clone_m p) Q) by (rewrite Hu; cbn [sim]; done).
  iIntros "[H K]". iApply Hsim. iApply sim_eq. iApply (sim_clone h); [done|]. iFrame "H". iIntros (l' q) "H U %E". assert (l' = u') as -> by congruence. by iApply ("K" with "H").
Qed.
Lemma wp_relations_clone_rest h l : ∀ p last e x clone l' fuel (Q : _ → oprop), sees h (m_relations p l) → clone_list l = Ok l' → (List.length l < fuel)%nat →
  own h ∗ last ↦ CList e NULL ∗ M (m_relation e x) ∗ (own h -∗ M (m_relations last (x :: l')) -∗ Q clone) ⊢ wp (list_clone_loop_m fuel p false clone last) Q.
Proof.
  induction l as [|u l IH]; intros p last e x clone l' [|fuel] Q Hs Hl Hf; try (cbn in Hf; lia); cbn [list_clone_loop_m]; rewrite (sees_chain_null _ element_nonnull _ _ _ Hs);
    unfold clone_list in Hl; cbn [mapM] in Hl; iIntros "(H & P & E & K)".
  - assert (l' = []) as -> by congruence. iApply wp_ret. iApply ("K" with "H"). rewrite M_relations_cons. iExists e, NULL. iFrame "P E". by rewrite M_relations_nil.
  - destruct (osl_relation_clone u) as [u'| | |] eqn:Eu; cbn [bind] in Hl; try discriminate. destruct (mapM osl_relation_clone l) as [l1| | |] eqn:El; cbn [bind] in Hl; try discriminate.
    assert (l' = u' :: l1) as -> by congruence. apply sees_chain_cons in Hs as (n & (eu & Ep & _ & Su)%sees_element & Sl).
    iApply wp_bind. iApply wp_alloc. iIntros (q) "N". iApply wp_bind. iApply (reads_node h p eu n Ep). iFrame "H". iIntros "H". iApply wp_bind. iApply (wp_relation_copy h eu u u'); [done..|]. iFrame "H". iIntros (c) "H C".
    iApply wp_bind. iApply wp_get_list. iFrame "N". iIntros "N". iApply wp_bind. iApply wp_store. iFrame "N". iIntros "N".
    iApply wp_bind. iApply (reads_node h p eu n Ep). iFrame "H". iIntros "H". iApply wp_bind. iApply wp_set_list_next. iFrame "P". iIntros "P".
    iApply (IH n q c u' clone l1); [done|done|cbn in Hf; lia|]. iFrame "H N C". iIntros "H L". iApply ("K" with "H"). rewrite (M_relations_cons last). iExists e, q. iFrame.
Qed.
Lemma wp_relations_clone h p l l' (Q : _ → oprop) : sees h (m_relations p l) → clone_list l = Ok l' →
  own h ∗ (∀ q, own h -∗ M (m_relations q l') -∗ Q q) ⊢ wp (osl_relation_list_clone_m p) Q.
Proof.
  intros Hs Hl. apply (wp_loop_on (List.length l)); [eapply own_size; [apply relations_size|done]|]. intros [|k] Hk; [lia|]. cbn [list_clone_loop_m].
  rewrite (sees_chain_null _ element_nonnull _ _ _ Hs). iIntros "[H K]". unfold clone_list in Hl. destruct l as [|u l]; cbn [mapM] in Hl.
  - assert (l' = []) as -> by congruence. iApply wp_ret. iApply ("K" with "H"). by rewrite M_relations_nil.
  - destruct (osl_relation_clone u) as [u'| | |] eqn:Eu; cbn [bind] in Hl; try discriminate. destruct (mapM osl_relation_clone l) as [l1| | |] eqn:El; cbn [bind] in Hl; try discriminate.
    assert (l' = u' :: l1) as -> by congruence. apply sees_chain_cons in Hs as (n & (eu & Ep & _ & Su)%sees_element & Sl).
    iApply wp_bind. iApply wp_alloc. iIntros (q) "N". iApply wp_bind. iApply (reads_node h p eu n Ep). iFrame "H". iIntros "H". iApply wp_bind. iApply (wp_relation_copy h eu u u'); [done..|]. iFrame "H". iIntros (c) "H C".
    iApply wp_bind. iApply wp_get_list. iFrame "N". iIntros "N". iApply wp_bind. iApply wp_store. iFrame "N". iIntros "N".
    iApply wp_bind. iApply (reads_node h p eu n Ep). iFrame "H". iIntros "H". iApply wp_bind. iApply wp_ret.
    iApply (wp_relations_clone_rest h l n q c u' q l1); [done|done|cbn in Hk; lia|]. iFrame "H N C". iIntros "H L". iApply ("K" with "H L").
Qed.
Lemma wp_list_node_m h p u u' (Q : _ → oprop) : sees h (m_relation p u) → osl_relation_clone u = Ok u' →
  own h ∗ (∀ q, own h -∗ M (m_relations q (match u with [] => [] | _ => [u'] end)) -∗ Q q) ⊢ wp (osl_relation_list_node_m p) Q.
Proof.
  intros Hs Hu. unfold osl_relation_list_node_m. rewrite (sees_relation_null _ _ _ Hs). iIntros "[H K]". destruct u as [|r u].
  - iApply wp_ret. iApply ("K" with "H"). by rewrite M_relations_nil.
  - iApply wp_bind. iApply wp_alloc. iIntros (q) "N". iApply wp_bind. iApply (wp_relation_copy h p _ u'); [done..|]. iFrame "H". iIntros (c) "H C".
    iApply wp_bind. iApply wp_get_list. iFrame "N". iIntros "N". iApply wp_bind. iApply wp_store. iFrame "N". iIntros "N". iApply wp_ret. iApply ("K" with "H").
    rewrite M_relations_cons. iExists c, NULL. iFrame. by rewrite M_relations_nil.
Qed.

(** ** Filter *)
Lemma wp_filter_test_m e u type (Q : _ → oprop) : M (m_relation e u) ∗ (M (m_relation e u) -∗ Q (keeps type u)) ⊢ wp (filter_test_m e type) Q.
Proof.
  iIntros "[U K]". iDestruct (relation_null with "U") as "[%E U]". unfold filter_test_m. rewrite E. destruct u as [|r u]; cbn [keeps].
  - iApply wp_ret. by iApply "K".
  - rewrite M_relation_cons. iDestruct "U" as (n) "[P U]". rewrite M_part. iDestruct "P" as (m) "(P & A)". iApply wp_bind. iApply wp_get_part. iFrame "P". iIntros "P".
    iApply wp_ret. iApply "K". iExists n. iFrame "U". rewrite M_part. iExists m. iFrame.
Qed.
Lemma M_relations_one p e u : p ↦ CList e NULL ∗ M (m_relation e u) ⊢ M (m_relations p [u]).
Proof. iIntros "[P U]". rewrite M_relations_cons. iExists e, NULL. iFrame. by rewrite M_relations_nil. Qed.
Lemma wp_filter_rest_m type l : ∀ p prev ep up filtered fuel (Q : _ → oprop), (List.length l < fuel)%nat →
  M (m_relations p l) ∗ prev ↦ CList ep p ∗ M (m_relation ep up) ∗ (M (m_relations prev (up :: List.filter (keeps type) l)) -∗ Q filtered)
  ⊢ wp (list_filter_loop_m fuel type p false filtered prev) Q.
Proof.
  induction l as [|u l IH]; intros p prev ep up filtered [|fuel] Q Hf; try (cbn in Hf; lia); cbn [list_filter_loop_m List.filter].
  - rewrite M_relations_nil. iIntros "(-> & P & E & K)". iApply wp_ret. iApply "K". iApply M_relations_one. iFrame.
  - rewrite M_relations_cons. iIntros "((%e & %n & H & E & L) & P & EP & K)". iDestruct (isnull_false with "H") as "[%Ep H]". rewrite Ep.
    iApply wp_bind. iApply wp_get_list. iFrame "H". iIntros "H". iApply wp_bind. iApply (wp_filter_test_m e u). iFrame "E". iIntros "E". destruct (keeps type u).
    + iApply (IH n p e u); [cbn in Hf; lia|]. iFrame "L H E". iIntros "L". iApply "K". rewrite (M_relations_cons prev). iExists ep, p. iFrame.
    + iApply wp_bind. iApply wp_set_list_next. iFrame "P". iIntros "P". iApply wp_bind. iApply wp_set_list_next. iFrame "H". iIntros "H".
      iApply wp_bind. iApply (wp_relations_free p [u]). iSplitL "H E"; [iApply M_relations_one; iFrame|]. iApply (IH n prev ep up); [cbn in Hf; lia|]. iFrame.
Qed.
Lemma wp_filter_first_m type l : ∀ p fuel (Q : _ → oprop), (List.length l < fuel)%nat →
  M (m_relations p l) ∗ (∀ q, M (m_relations q (List.filter (keeps type) l)) -∗ Q q) ⊢ wp (list_filter_loop_m fuel type p true NULL NULL) Q.
Proof.
  induction l as [|u l IH]; intros p [|fuel] Q Hf; try (cbn in Hf; lia); cbn [list_filter_loop_m List.filter].
  - rewrite {1}M_relations_nil. iIntros "(-> & K)". iApply wp_ret. iApply "K". by rewrite M_relations_nil.
  - rewrite M_relations_cons. iIntros "((%e & %n & H & E & L) & K)". iDestruct (isnull_false with "H") as "[%Ep H]". rewrite Ep.
    iApply wp_bind. iApply wp_get_list. iFrame "H". iIntros "H". iApply wp_bind. iApply (wp_filter_test_m e u). iFrame "E". iIntros "E". destruct (keeps type u).
    + iApply (wp_filter_rest_m type l n p e u p); [cbn in Hf; lia|]. iFrame "L H E". iIntros "L". by iApply "K".
    + iApply wp_bind. iApply wp_ret. iApply wp_bind. iApply wp_set_list_next. iFrame "H". iIntros "H".
      iApply wp_bind. iApply (wp_relations_free p [u]). iSplitL "H E"; [iApply M_relations_one; iFrame|]. iApply IH; [cbn in Hf; lia|]. iFrame.
Qed.
Lemma wp_relations_filter h p l l' type (Q : _ → oprop) : sees h (m_relations p l) → clone_list l = Ok l' →
  own h ∗ (∀ q, own h -∗ M (m_relations q (List.filter (keeps type) l')) -∗ Q q) ⊢ wp (osl_relation_list_filter_m p type) Q.
Proof.
  intros Hs Hl. iIntros "[H K]". iApply wp_bind. iApply (wp_relations_clone h p l l'); [done..|]. iFrame "H". iIntros (c) "H C".
  iCombine "H K" as "K". iCombine "C K" as "K". iStopProof. apply (wp_loop_on (List.length l')); [apply relations_size|].
  intros n Hn. iIntros "(C & H & K)". iApply (wp_filter_first_m type l'); [done|]. iFrame "C". iIntros (q) "C". iApply ("K" with "H C").
Qed.
End R.

(** ** Copies of statements and scops *)
Section CLONE.
Context {cfg : config} {al : Allocator obj}.
Hypothesis Hc : config_ok cfg.
Lemma wp_relation_same h p u (Q : _ → oprop) : sees h (m_relation p u) → Forall (wf_rel cfg) u → own h ∗ (∀ q, own h -∗ M (m_relation q u) -∗ Q q) ⊢ wp (osl_relation_clone_m p) Q.
Proof. intros Hs Hu. apply (wp_relation_copy h p u u); [done|]. by apply (clone_union Hc). Qed.
Lemma wp_relations_same h p l (Q : _ → oprop) : sees h (m_relations p l) → Forall (Forall (wf_rel cfg)) l → own h ∗ (∀ q, own h -∗ M (m_relations q l) -∗ Q q) ⊢ wp (osl_relation_list_clone_m p) Q.
Proof. intros Hs Hl. apply (wp_relations_clone h p l l); [done|]. by apply (clone_list_same Hc). Qed.
Lemma wp_stmt_copy_one h d c a e s new v (Q : _ → oprop) (k : oprog ptr) :
  sees h (m_relation d (st_domain s)) → sees h (m_relation c (st_scattering s)) → sees h (m_relations a (st_access s)) → sees h (m_generics e (st_ext s)) → clonable_statement cfg s →
  own h ∗ new ↦ v ∗ (own h -∗ M (m_stmt new s NULL) -∗ wp k Q) ⊢
  wp (d' <== osl_relation_clone_m d ;; s' <== osl_relation_clone_m c ;; a' <== osl_relation_list_clone_m a ;; e' <== osl_generic_clone_f e ;; put new (BStmt d' s' a' e' NULL) ;;== k) Q.
Proof.
  intros Sd Ss Sa Se (Cd & Cs & Ca & Ce). iIntros "(H & N & K)". iApply wp_bind. iApply wp_relation_same; [done..|]. iFrame "H". iIntros (d') "H D". iApply wp_bind. iApply wp_relation_same; [done..|]. iFrame "H". iIntros (s') "H S".
  iApply wp_bind. iApply wp_relations_same; [done..|]. iFrame "H". iIntros (a') "H A". iApply wp_bind. iApply (wp_generic_clone Hc); [done..|]. iFrame "H". iIntros (e') "H E". putp "N". iApply ("K" with "H").
  iExists (d', s', a', e'). iSplitL "N"; [done|]. iSplitL "D"; [done|]. iSplitL "S"; [done|]. iSplitL "A"; done.
Qed.
Lemma wp_stmt_copy_rest h n l : ∀ p i last x clone fuel (Q : _ → oprop), sees h (m_stmts p l) → Forall (clonable_statement cfg) l → 0 ≤ i → -1 ≤ n → (List.length l < fuel)%nat →
  own h ∗ M (m_stmt last x NULL) ∗ (own h -∗ M (m_stmts last (x :: if n =? -1 then l else firstn (Z.to_nat (n - i)) l)) -∗ Q clone) ⊢ wp (stmt_clone_loop_m fuel p n i false clone last) Q.
Proof.
  induction l as [|y l IH]; intros p i last x clone [|fuel] Q Hs Hl Hi Hn Hf; try (cbn in Hf; lia); cbn [stmt_clone_loop_m]; rewrite (sees_chain_null _ stmt_nonnull _ _ _ Hs); iIntros "(H & L & K)".
  - cbn [orb]. iApply wp_ret. iApply ("K" with "H"). destruct (n =? -1); rewrite ?firstn_nil; by iApply (M_chain_one m_stmt).
  - cbn [orb]. destruct ((n =? -1) || (i <? n)) eqn:E; cbn [negb].
    2:{ iApply wp_ret. apply orb_false_iff in E as [E1 E2]. rewrite E1. apply Z.ltb_ge in E2. replace (Z.to_nat (n - i)) with O by lia. rewrite firstn_O. iApply ("K" with "H"). by iApply (M_chain_one m_stmt). }
    inversion Hl; subst. apply sees_chain_cons in Hs as (nx & Hx & Hr). destruct (sees_stmt _ _ _ _ Hx) as (d & c & a & e & Hp & _ & Sd & Ss & Sa & Se).
    iApply wp_bind. iApply wp_malloc. iIntros (new) "N". getown Hp. iApply (wp_stmt_copy_one h d c a e y new); [done..|]. iFrame "H N". iIntros "H N".
    iApply wp_bind. iApply wp_set_stmts_next. iFrame "L". iIntros "L". iApply (IH nx (i + 1) new y); [done|done|lia|done|cbn in Hf; lia|]. iFrame "H N". iIntros "H N". iApply ("K" with "H").
    unfold m_stmts. rewrite (M_chain_cons _ last). iExists new. iFrame "L". destruct (Z.eqb_spec n (-1)); [done|]. assert (i < n) by lia. replace (Z.to_nat (n - i)) with (S (Z.to_nat (n - (i + 1)))) by lia. done.
Qed.
Lemma wp_stmts_nclone h p l n (Q : _ → oprop) : sees h (m_stmts p l) → Forall (clonable_statement cfg) l → -1 ≤ n →
  own h ∗ (∀ q, own h -∗ M (m_stmts q (if n =? -1 then l else firstn (Z.to_nat n) l)) -∗ Q q) ⊢ wp (osl_statement_nclone_m p n) Q.
Proof.
  intros Hs Hl Hn. apply (wp_loop_on (List.length l)); [eapply own_size; [apply stmts_size|done]|]. intros [|k] Hk; [lia|]. cbn [stmt_clone_loop_m].
  rewrite (sees_chain_null _ stmt_nonnull _ _ _ Hs). iIntros "[H K]". destruct l as [|x l].
  - cbn [orb]. iApply wp_ret. iApply ("K" with "H"). unfold m_stmts. destruct (n =? -1); rewrite ?firstn_nil; by rewrite M_chain_nil.
  - cbn [orb]. destruct ((n =? -1) || (0 <? n)) eqn:E; cbn [negb].
    2:{ iApply wp_ret. apply orb_false_iff in E as [E1 E2]. rewrite E1. apply Z.ltb_ge in E2. replace (Z.to_nat n) with O by lia. rewrite firstn_O. iApply ("K" with "H"). unfold m_stmts. by rewrite M_chain_nil. }
    inversion Hl; subst. apply sees_chain_cons in Hs as (nx & Hx & Hr). destruct (sees_stmt _ _ _ _ Hx) as (d & c & a & e & Hp & _ & Sd & Ss & Sa & Se).
    iApply wp_bind. iApply wp_malloc. iIntros (new) "N". getown Hp. iApply (wp_stmt_copy_one h d c a e x new); [done..|]. iFrame "H N". iIntros "H N". iApply wp_bind. iApply wp_ret.
    iApply (wp_stmt_copy_rest h n l nx (0 + 1) new x); [done|done|lia|done|cbn in Hk; lia|]. iFrame "H N". iIntros "H N". iApply ("K" with "H").
    destruct (Z.eqb_spec n (-1)); [done|]. replace (Z.to_nat n) with (S (Z.to_nat (n - (0 + 1)))) by lia. done.
Qed.
Lemma wp_stmts_clone h p l (Q : _ → oprop) : sees h (m_stmts p l) → Forall (clonable_statement cfg) l →
  own h ∗ (∀ q, own h -∗ M (m_stmts q l) -∗ Q q) ⊢ wp (osl_statement_clone_m p) Q.
Proof. intros Hs Hl. by apply (wp_stmts_nclone h p l (-1)). Qed.
Lemma sees_scop_registry h p s n : sees h (m_scop_node p s n) → (∃ l c pa st r e, h !! p = Some (CBlock (BScop (sc_version s) l c pa st r e n)) ∧
  sees h (m_str l (sc_language s)) ∧ sees h (m_relation c (sc_context s)) ∧ sees h (m_generics pa (sc_params s)) ∧ sees h (m_stmts st (sc_stmts s)) ∧
  sees h (m_ifaces r (sc_registry s)) ∧ sees h (m_generics e (sc_ext s)))%type.
Proof.
  intros ([[[[[l c] pa] st] r] e] & H)%sees_somewhere. exists l, c, pa, st, r, e. apply sees_beside in H as [[H1 H2]%sees_cell H].
  apply sees_beside in H as [H3 H]. apply sees_beside in H as [H4 H]. apply sees_beside in H as [H5 H]. apply sees_beside in H as [H6 H]. apply sees_beside in H as [H7 H]. done.
Qed.
Lemma wp_scop_copy_one h lg c pa st r e y new v (Q : _ → oprop) (k : oprog ptr) :
  sees h (m_str lg (sc_language y)) → sees h (m_relation c (sc_context y)) → sees h (m_generics pa (sc_params y)) → sees h (m_stmts st (sc_stmts y)) →
  sees h (m_ifaces r (sc_registry y)) → sees h (m_generics e (sc_ext y)) → clonable_scop cfg y →
  own h ∗ new ↦ v ∗ (own h -∗ M (m_scop_node new y NULL) -∗ wp k Q) ⊢
  wp (l' <== (if isnull lg then ret NULL else strdup_p lg) ;; c' <== osl_relation_clone_m c ;; p' <== osl_generic_clone_f pa ;; s' <== osl_statement_clone_m st ;;
      r' <== osl_interface_clone_f r ;; e' <== osl_generic_clone_f e ;; put new (BScop (sc_version y) l' c' p' s' r' e' NULL) ;;== k) Q.
Proof.
  intros S1 S2 S3 S4 S5 S6 (C1 & C2 & C3 & [C4 C4'] & C5). iIntros "(H & N & K)".
  iApply wp_bind. iApply (wp_strdup_null h lg (sc_language y)); [done|]. iFrame "H". iIntros (lg') "H XL". iApply wp_bind. iApply wp_relation_same; [done..|]. iFrame "H". iIntros (c') "H XC".
  iApply wp_bind. iApply (wp_generic_clone Hc); [done..|]. iFrame "H". iIntros (pa') "H XP". iApply wp_bind. iApply wp_stmts_clone; [done..|]. iFrame "H". iIntros (st') "H XS".
  iApply wp_bind. iApply wp_interface_clone; [done..|]. iFrame "H". iIntros (r') "H XR". iApply wp_bind. iApply (wp_generic_clone Hc); [done..|]. iFrame "H". iIntros (e') "H XE". putp "N".
  iApply ("K" with "H"). iExists (lg', c', pa', st', r', e'). iSplitL "N"; [done|]. iSplitL "XL"; [done|]. iSplitL "XC"; [done|]. iSplitL "XP"; [done|]. iSplitL "XS"; [done|]. iSplitL "XR"; done.
Qed.
Lemma wp_scop_copy_rest h l : ∀ p last x clone fuel (Q : _ → oprop), sees h (m_scop_list p l) → Forall (clonable_scop cfg) l → (List.length l < fuel)%nat →
  own h ∗ M (m_scop_node last x NULL) ∗ (own h -∗ M (m_scop_list last (x :: l)) -∗ Q clone) ⊢ wp (scop_clone_loop_m fuel p false clone last) Q.
Proof.
  induction l as [|y l IH]; intros p last x clone [|fuel] Q Hs Hl Hf; try (cbn in Hf; lia); cbn [scop_clone_loop_m]; rewrite (sees_chain_null _ scop_node_nonnull _ _ _ Hs); iIntros "(H & L & K)".
  - iApply wp_ret. iApply ("K" with "H"). by iApply (M_chain_one m_scop_node).
  - inversion Hl; subst. apply sees_chain_cons in Hs as (nx & Hx & Hr). destruct (sees_scop_registry _ _ _ _ Hx) as (lg & c & pa & st & r & e & Hp & S1 & S2 & S3 & S4 & S5 & S6).
    iApply wp_bind. iApply wp_malloc. iIntros (new) "N". getown Hp. iApply (wp_scop_copy_one h lg c pa st r e y new); [done..|]. iFrame "H N". iIntros "H N".
    iApply wp_bind. iApply wp_set_scops_next. iFrame "L". iIntros "L". iApply (IH nx new y); [done|done|cbn in Hf; lia|]. iFrame "H N".
    iIntros "H N". iApply ("K" with "H"). unfold m_scop_list. rewrite (M_chain_cons _ last). iExists new. iFrame.
Qed.
Lemma wp_scops_clone h p l (Q : _ → oprop) : sees h (m_scop_list p l) → Forall (clonable_scop cfg) l →
  own h ∗ (∀ q, own h -∗ M (m_scop_list q l) -∗ Q q) ⊢ wp (osl_scop_clone_m p) Q.
Proof.
  intros Hs Hl. apply (wp_loop_on (List.length l)); [eapply own_size; [apply scops_size|done]|]. intros [|k] Hk; [lia|]. cbn [scop_clone_loop_m].
  rewrite (sees_chain_null _ scop_node_nonnull _ _ _ Hs). iIntros "[H K]". destruct l as [|x l].
  - iApply wp_ret. iApply ("K" with "H"). unfold m_scop_list. by rewrite M_chain_nil.
  - inversion Hl; subst. apply sees_chain_cons in Hs as (nx & Hx & Hr). destruct (sees_scop_registry _ _ _ _ Hx) as (lg & c & pa & st & r & e & Hp & S1 & S2 & S3 & S4 & S5 & S6).
    iApply wp_bind. iApply wp_malloc. iIntros (new) "N". getown Hp. iApply (wp_scop_copy_one h lg c pa st r e x new); [done..|]. iFrame "H N". iIntros "H N".
    iApply wp_bind. iApply wp_ret. iApply (wp_scop_copy_rest h l nx new x); [done|done|cbn in Hk; lia|]. iFrame "H N". iIntros "H N". iApply ("K" with "H N").
Qed.
End CLONE.
