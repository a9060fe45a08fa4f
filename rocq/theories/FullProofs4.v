(** * FullProofs4: statements, scops and names in memory *)
From stdpp Require Import gmap.
From iris.proofmode Require Import tactics.
From Coq Require Import ZifyBool ZifyNat.
From Verif Require Import Base IntModel VectorModel RelationModel RelSpec StringsModel RelTextModel ExtModel HeapModel HeapObjects HeapSpec HeapLogic HeapProofs ScopModel CloneSpec PropClone PayloadModel PayloadSpec PayloadProofs PayloadProofs2 PayloadProofs3 PayloadProofs4 PayloadProofs5 PayloadProofs6 PropStrings PropHeap FullModel FullSpec FullProofs FullProofs2 FullProofs3.
Local Open Scope string_scope.
Local Open Scope list_scope.
Local Open Scope Z_scope.
Local Open Scope bi_scope.
Notation loop := HeapModel.loop.

Lemma M_list p l : M (m_list p l) ⊣⊢ rlist p l.
Proof. constructor. intros h. rewrite M_holds. symmetry. apply rlist_spec. Qed.

Section R.
Context {cfg : config} {al : Allocator obj}.

Lemma wp_union_free p u (Q : _ → oprop) : M (m_union p u) ∗ Q tt ⊢ wp (osl_relation_free_p p) Q.
Proof. unfold m_union. rewrite M_union. apply wp_relation_free. Qed.
Lemma wp_list_free_m p l (Q : _ → oprop) : M (m_list p l) ∗ Q tt ⊢ wp (osl_relation_list_free_p p) Q.
Proof. rewrite M_list. apply wp_list_free. Qed.

(** ** Statements *)
Lemma sees_statement h p s n : sees h (m_statement p s n) → (∃ d c a e, h !! p = Some (CBlock (BStmt d c a e n)) ∧ p ≠ NULL ∧
  sees h (m_union d (st_domain s)) ∧ sees h (m_union c (st_scattering s)) ∧ sees h (m_list a (st_access s)) ∧ sees h (m_generics e (st_ext s)))%type.
Proof.
  intros [[[[d c] a] e] H]%sees_somewhere. exists d, c, a, e. apply sees_beside in H as [[H1 H2]%sees_cell H].
  apply sees_beside in H as [H3 H]. apply sees_beside in H as [H4 H]. apply sees_beside in H as [H5 H]. done.
Qed.
Lemma statement_nonnull h p s n : sees h (m_statement p s n) → p ≠ NULL.
Proof. by intros (d & c & a & e & _ & ? & _)%sees_statement. Qed.
Lemma statement_size p s n : M (m_statement p s n) ⊢ size_ge 1.
Proof. apply size_somewhere. intros [[[d c] a] e]. apply size_first, size_cell. Qed.
Lemma statements_size p l : M (m_statements p l) ⊢ size_ge (List.length l).
Proof. apply (chain_length_size m_statement l statement_size). Qed.
Lemma wp_stmt_free_loop l : ∀ p fuel (Q : _ → oprop), (List.length l < fuel)%nat → Forall (λ t, typed_generics (st_ext t)) l → M (m_statements p l) ∗ Q tt ⊢ wp (stmt_free_loop fuel p) Q.
Proof.
  induction l as [|x l IH]; intros p [|fuel] Q Hf Ht; try (cbn in Hf; lia); cbn [stmt_free_loop]; unfold m_statements.
  - rewrite M_chain_nil. iIntros "[%E K]". subst p. by iApply wp_ret.
  - inversion Ht; subst. rewrite M_chain_cons. iIntros "[(%n & (%w & P) & R) K]". destruct w as [[[d c] a] e]. iDestruct "P" as "(P & D & C & A & E)". rewrite M_cell.
    iDestruct (isnull_false with "P") as "[%Ep P]". rewrite Ep. get "P". iApply wp_bind. iApply wp_union_free. iFrame "D". iApply wp_bind. iApply wp_union_free. iFrame "C".
    iApply wp_bind. iApply wp_list_free_m. iFrame "A". iApply wp_bind. iApply wp_generic_free; [done|]. iFrame "E". iApply wp_bind. iApply wp_free. iFrame "P".
    iApply IH; [cbn in Hf; lia|done|]. iFrame.
Qed.
Lemma wp_statement_free p l (Q : _ → oprop) : Forall (λ t, typed_generics (st_ext t)) l → M (m_statements p l) ∗ Q tt ⊢ wp (osl_statement_free_f p) Q.
Proof. intros Ht. apply (wp_loop_on (List.length l)); [apply statements_size|]. intros n Hn. by apply wp_stmt_free_loop. Qed.
Lemma wp_set_stmt_next p x n n' (Q : _ → oprop) : M (m_statement p x n) ∗ (M (m_statement p x n') -∗ Q tt) ⊢ wp (set_stmt_next_b p n') Q.
Proof.
  iIntros "[(%w & A) K]". destruct w as [[[d c] a] e]. iDestruct "A" as "(P & A)". rewrite M_cell. get "P".
  iApply wp_put. iFrame "P". iIntros "P". iApply "K". iExists (d, c, a, e). iSplitL "P"; done.
Qed.
Lemma wp_statement_add p acc c l (Q : _ → oprop) :
  M (m_statements p acc) ∗ M (m_statements c l) ∗ (∀ q, M (m_statements q (acc ++ l)) -∗ Q q) ⊢ wp (osl_statement_add_f p c) Q.
Proof.
  iIntros "(P & C & K)". unfold osl_statement_add_f, m_statements. iDestruct (chain_null _ statement_nonnull with "P") as "[%Ep P]". rewrite Ep. destruct acc as [|y acc].
  - iApply wp_ret. iApply "K". rewrite M_chain_nil. by iDestruct "P" as "_".
  - iApply wp_bind. iApply (wp_link_loop m_statement statement_nonnull stmt_link_loop set_stmt_next_b); [|apply wp_set_stmt_next|apply statement_size|].
    { intros f q z n q' Q'. iIntros "[(%w & A) K]". destruct w as [[[d c'] a] e]. iDestruct "A" as "(P & A)". cbn [stmt_link_loop]. rewrite M_cell. get "P".
      iApply "K". iExists (d, c', a, e). iSplitL "P"; done. }
    iFrame "P C". iIntros "P". iApply wp_ret. by iApply "K".
Qed.

(** ** Scops *)
Lemma sees_scop h p s n : sees h (m_scop p s n) → (∃ l c pa st r e, h !! p = Some (CBlock (BScop (sc_version s) l c pa st r e n)) ∧ p ≠ NULL ∧
  sees h (m_str l (sc_language s)) ∧ sees h (m_union c (sc_context s)) ∧ sees h (m_generics pa (sc_params s)) ∧ sees h (m_statements st (sc_stmts s)) ∧
  sees h (m_ifaces r (sc_registry s)) ∧ sees h (m_generics e (sc_ext s)))%type.
Proof.
  intros [[[[[[l c] pa] st] r] e] H]%sees_somewhere. exists l, c, pa, st, r, e. apply sees_beside in H as [[H1 H2]%sees_cell H].
  apply sees_beside in H as [H3 H]. apply sees_beside in H as [H4 H]. apply sees_beside in H as [H5 H]. apply sees_beside in H as [H6 H]. apply sees_beside in H as [H7 H]. done.
Qed.
Lemma scop_nonnull h p s n : sees h (m_scop p s n) → p ≠ NULL.
Proof. by intros (l & c & pa & st & r & e & _ & ? & _)%sees_scop. Qed.
Lemma scop_size p s n : M (m_scop p s n) ⊢ size_ge 1.
Proof. apply size_somewhere. intros [[[[[l c] pa] st] r] e]. apply size_first, size_cell. Qed.
Lemma scops_size p l : M (m_scops p l) ⊢ size_ge (List.length l).
Proof. apply (chain_length_size m_scop l scop_size). Qed.
Lemma wp_scop_free_loop l : ∀ p fuel (Q : _ → oprop), (List.length l < fuel)%nat → Forall typed_scop l → M (m_scops p l) ∗ Q tt ⊢ wp (scop_free_loop_b fuel p) Q.
Proof.
  induction l as [|x l IH]; intros p [|fuel] Q Hf Ht; try (cbn in Hf; lia); cbn [scop_free_loop_b]; unfold m_scops.
  - rewrite M_chain_nil. iIntros "[%E K]". subst p. by iApply wp_ret.
  - inversion Ht as [|? ? (Tp & Te & Ts) Ht']; subst. rewrite M_chain_cons. iIntros "[(%n & (%w & P) & R) K]". destruct w as [[[[[lg c] pa] st] r] e]. iDestruct "P" as "(P & L & C & A & S & G & E)". rewrite M_cell.
    iDestruct (isnull_false with "P") as "[%Ep P]". rewrite Ep. get "P". iApply wp_bind. iApply wp_free_if_str. iFrame "L". iApply wp_bind. iApply wp_generic_free; [exact Tp|]. iFrame "A".
    iApply wp_bind. iApply wp_union_free. iFrame "C". iApply wp_bind. iApply wp_statement_free; [exact Ts|]. iFrame "S". iApply wp_bind. iApply wp_interface_free. iFrame "G".
    iApply wp_bind. iApply wp_generic_free; [exact Te|]. iFrame "E". iApply wp_bind. iApply wp_free. iFrame "P". iApply IH; [cbn in Hf; lia|done|]. iFrame.
Qed.
Lemma wp_scop_free p l (Q : _ → oprop) : Forall typed_scop l → M (m_scops p l) ∗ Q tt ⊢ wp (osl_scop_free_f p) Q.
Proof. intros Ht. apply (wp_loop_on (List.length l)); [apply scops_size|]. intros n Hn. by apply wp_scop_free_loop. Qed.
Lemma wp_set_scop_next p x n n' (Q : _ → oprop) : M (m_scop p x n) ∗ (M (m_scop p x n') -∗ Q tt) ⊢ wp (set_scop_next_b p n') Q.
Proof.
  iIntros "[(%w & A) K]". destruct w as [[[[[lg c] pa] st] r] e]. iDestruct "A" as "(P & A)". rewrite M_cell. get "P".
  iApply wp_put. iFrame "P". iIntros "P". iApply "K". iExists (lg, c, pa, st, r, e). iSplitL "P"; done.
Qed.
Lemma wp_scop_add p acc c l (Q : _ → oprop) :
  M (m_scops p acc) ∗ M (m_scops c l) ∗ (∀ q, M (m_scops q (acc ++ l)) -∗ Q q) ⊢ wp (osl_scop_add_f p c) Q.
Proof.
  iIntros "(P & C & K)". unfold osl_scop_add_f, m_scops. iDestruct (chain_null _ scop_nonnull with "P") as "[%Ep P]". rewrite Ep. destruct acc as [|y acc].
  - iApply wp_ret. iApply "K". rewrite M_chain_nil. by iDestruct "P" as "_".
  - iApply wp_bind. iApply (wp_link_loop m_scop scop_nonnull scop_link_loop set_scop_next_b); [|apply wp_set_scop_next|apply scop_size|].
    { intros f q z n q' Q'. iIntros "[(%w & A) K]". destruct w as [[[[[lg c'] pa] st] r] e]. iDestruct "A" as "(P & A)". cbn [scop_link_loop]. rewrite M_cell. get "P".
      iApply "K". iExists (lg, c', pa, st, r, e). iSplitL "P"; done. }
    iFrame "P C". iIntros "P". iApply wp_ret. by iApply "K".
Qed.

(** ** Names *)
Lemma wp_names_free p x (Q : _ → oprop) : M (m_names p x) ∗ Q tt ⊢ wp (osl_names_free_f p) Q.
Proof.
  unfold osl_names_free_f. iIntros "[(%w & P) K]". destruct w as [[[[a b] c] d] e]. iDestruct "P" as "(P & A & B & C & D & E)". rewrite M_cell. iDestruct (isnull_false with "P") as "[%Ep P]". rewrite Ep. get "P".
  iApply wp_bind. iApply wp_strings_free. iFrame "A". iApply wp_bind. iApply wp_strings_free. iFrame "B". iApply wp_bind. iApply wp_strings_free. iFrame "C".
  iApply wp_bind. iApply wp_strings_free. iFrame "D". iApply wp_bind. iApply wp_strings_free. iFrame "E". iApply wp_free. iFrame.
Qed.
End R.

Section CLONE.
Context {cfg : config} {al : Allocator obj}.
Hypothesis Hc : config_ok cfg.
Lemma wp_strdup_null h p s (Q : _ → oprop) : sees h (m_str p s) →
  own h ∗ (∀ q, own h -∗ M (m_str q s) -∗ Q q) ⊢ wp (if isnull p then ret NULL else strdup_p p) Q.
Proof.
  intros Hs. destruct s as [s|].
  - pose proof (sees_cell _ _ _ Hs) as [_ Hn]. rewrite (null_ne p Hn). by apply wp_strdup.
  - apply sees_nothing in Hs as ->. cbn. iIntros "[H K]". iApply wp_ret. iApply ("K" with "H"). done.
Qed.
Lemma wp_union_clone h p u (Q : _ → oprop) : sees h (m_union p u) → Forall (wf_rel cfg) u → own h ∗ (∀ q, own h -∗ M (m_union q u) -∗ Q q) ⊢ wp (osl_relation_clone_p p) Q.
Proof. intros Hs Hu. unfold m_union in *. apply wp_relation_clone_own; [done|]. by apply (clone_union Hc). Qed.
Lemma clone_list_same l : Forall (Forall (wf_rel cfg)) l → clone_list l = Ok l.
Proof. intros H. unfold clone_list. induction H as [|u l Hu Hl IH]; [done|]. cbn [mapM]. rewrite (clone_union Hc) //. cbn [bind]. by rewrite IH. Qed.
Lemma wp_list_clone_m h p l (Q : _ → oprop) : sees h (m_list p l) → Forall (Forall (wf_rel cfg)) l → own h ∗ (∀ q, own h -∗ M (m_list q l) -∗ Q q) ⊢ wp (osl_relation_list_clone_p p) Q.
Proof.
  intros Hs Hl. destruct (sees_take _ _ Hs) as (hs & Hd & HT). iIntros "[H K]". iDestruct (HT with "H") as "[H R]".
  iApply (wp_list_clone hs p l l); [by apply clone_list_same|]. rewrite -{1}(own_ex hs (rlist p l)); [|by apply rlist_spec]. iFrame "H". iIntros (q) "H N".
  rewrite -(own_ex hs (rlist p l)); [|by apply rlist_spec]. iApply ("K" with "[H R]"); [by iApply "R"|]. by rewrite M_list.
Qed.
Lemma wp_stmt_clone_one h d c a e s new v (Q : _ → oprop) (k : ptr → ptr → ptr → ptr → oprog ptr) :
  sees h (m_union d (st_domain s)) → sees h (m_union c (st_scattering s)) → sees h (m_list a (st_access s)) → sees h (m_generics e (st_ext s)) → clonable_statement cfg s →
  own h ∗ new ↦ v ∗ (own h -∗ M (m_statement new s NULL) -∗ wp (k d c a e) Q) ⊢
  wp (d' <== osl_relation_clone_p d ;; s' <== osl_relation_clone_p c ;; a' <== osl_relation_list_clone_p a ;; e' <== osl_generic_clone_f e ;; put new (BStmt d' s' a' e' NULL) ;;== k d c a e) Q.
Proof.
  intros Sd Ss Sa Se (Cd & Cs & Ca & Ce). iIntros "(H & N & K)". iApply wp_bind. iApply wp_union_clone; [done..|]. iFrame "H". iIntros (d') "H D". iApply wp_bind. iApply wp_union_clone; [done..|]. iFrame "H". iIntros (s') "H S".
  iApply wp_bind. iApply wp_list_clone_m; [done..|]. iFrame "H". iIntros (a') "H A". iApply wp_bind. iApply (wp_generic_clone Hc); [done..|]. iFrame "H". iIntros (e') "H E". putp "N". iApply ("K" with "H").
  iExists (d', s', a', e'). iSplitL "N"; [done|]. iSplitL "D"; [done|]. iSplitL "S"; [done|]. iSplitL "A"; done.
Qed.
Lemma wp_stmt_clone_rest h n l : ∀ p i last x clone fuel (Q : _ → oprop), sees h (m_statements p l) → Forall (clonable_statement cfg) l → 0 ≤ i → -1 ≤ n → (List.length l < fuel)%nat →
  own h ∗ M (m_statement last x NULL) ∗ (own h -∗ M (m_statements last (x :: if n =? -1 then l else firstn (Z.to_nat (n - i)) l)) -∗ Q clone) ⊢ wp (stmt_clone_loop fuel p n i false clone last) Q.
Proof.
  induction l as [|y l IH]; intros p i last x clone [|fuel] Q Hs Hl Hi Hn Hf; try (cbn in Hf; lia); cbn [stmt_clone_loop]; rewrite (sees_chain_null _ statement_nonnull _ _ _ Hs); iIntros "(H & L & K)".
  - cbn [orb]. iApply wp_ret. iApply ("K" with "H"). destruct (n =? -1); rewrite ?firstn_nil; by iApply (M_chain_one m_statement).
  - cbn [orb]. destruct ((n =? -1) || (i <? n)) eqn:E; cbn [negb].
    2:{ iApply wp_ret. apply orb_false_iff in E as [E1 E2]. rewrite E1. apply Z.ltb_ge in E2. replace (Z.to_nat (n - i)) with O by lia. rewrite firstn_O. iApply ("K" with "H"). by iApply (M_chain_one m_statement). }
    inversion Hl; subst. apply sees_chain_cons in Hs as (nx & Hx & Hr). destruct (sees_statement _ _ _ _ Hx) as (d & c & a & e & Hp & _ & Sd & Ss & Sa & Se).
    iApply wp_bind. iApply wp_malloc. iIntros (new) "N". getown Hp. iApply (wp_stmt_clone_one h d c a e y new _ _ (λ _ _ _ _, _)); [done..|]. iFrame "H N". iIntros "H N".
    iApply wp_bind. iApply wp_set_stmt_next. iFrame "L". iIntros "L". iApply (IH nx (i + 1) new y); [done|done|lia|done|cbn in Hf; lia|]. iFrame "H N". iIntros "H N". iApply ("K" with "H").
    unfold m_statements. rewrite (M_chain_cons _ last). iExists new. iFrame "L". destruct (Z.eqb_spec n (-1)); [done|]. assert (i < n) by lia. replace (Z.to_nat (n - i)) with (S (Z.to_nat (n - (i + 1)))) by lia. done.
Qed.
Lemma wp_statement_nclone h p l n (Q : _ → oprop) : sees h (m_statements p l) → Forall (clonable_statement cfg) l → -1 ≤ n →
  own h ∗ (∀ q, own h -∗ M (m_statements q (if n =? -1 then l else firstn (Z.to_nat n) l)) -∗ Q q) ⊢ wp (osl_statement_nclone_f p n) Q.
Proof.
  intros Hs Hl Hn. apply (wp_loop_on (List.length l)); [eapply own_size; [apply statements_size|done]|]. intros [|k] Hk; [lia|]. cbn [stmt_clone_loop].
  rewrite (sees_chain_null _ statement_nonnull _ _ _ Hs). iIntros "[H K]". destruct l as [|x l].
  - cbn [orb]. iApply wp_ret. iApply ("K" with "H"). by destruct (n =? -1); rewrite ?firstn_nil.
  - cbn [orb]. destruct ((n =? -1) || (0 <? n)) eqn:E; cbn [negb].
    2:{ iApply wp_ret. apply orb_false_iff in E as [E1 E2]. rewrite E1. apply Z.ltb_ge in E2. replace (Z.to_nat n) with O by lia. rewrite firstn_O. by iApply ("K" with "H"). }
    inversion Hl; subst. apply sees_chain_cons in Hs as (nx & Hx & Hr). destruct (sees_statement _ _ _ _ Hx) as (d & c & a & e & Hp & _ & Sd & Ss & Sa & Se).
    iApply wp_bind. iApply wp_malloc. iIntros (new) "N". getown Hp. iApply (wp_stmt_clone_one h d c a e x new _ _ (λ _ _ _ _, _)); [done..|]. iFrame "H N". iIntros "H N". iApply wp_bind. iApply wp_ret.
    iApply (wp_stmt_clone_rest h n l nx (0 + 1) new x); [done|done|lia|done|cbn in Hk; lia|]. iFrame "H N". iIntros "H N". iApply ("K" with "H").
    destruct (Z.eqb_spec n (-1)); [done|]. replace (Z.to_nat n) with (S (Z.to_nat (n - (0 + 1)))) by lia. done.
Qed.
Lemma wp_statement_clone h p l (Q : _ → oprop) : sees h (m_statements p l) → Forall (clonable_statement cfg) l →
  own h ∗ (∀ q, own h -∗ M (m_statements q l) -∗ Q q) ⊢ wp (osl_statement_clone_f p) Q.
Proof. intros Hs Hl. by apply (wp_statement_nclone h p l (-1)). Qed.
Lemma wp_scop_clone_rest h l : ∀ p last x clone fuel (Q : _ → oprop), sees h (m_scops p l) → Forall (clonable_scop cfg) l → (List.length l < fuel)%nat →
  own h ∗ M (m_scop last x NULL) ∗ (own h -∗ M (m_scops last (x :: l)) -∗ Q clone) ⊢ wp (scop_clone_loop_b fuel p false clone last) Q.
Proof.
  induction l as [|y l IH]; intros p last x clone [|fuel] Q Hs Hl Hf; try (cbn in Hf; lia); cbn [scop_clone_loop_b]; rewrite (sees_chain_null _ scop_nonnull _ _ _ Hs); iIntros "(H & L & K)".
  - iApply wp_ret. iApply ("K" with "H"). by iApply (M_chain_one m_scop).
  - inversion Hl as [|? ? (C1 & C2 & C3 & [C4 C4'] & C5) Hl']; subst. apply sees_chain_cons in Hs as (nx & Hx & Hr). destruct (sees_scop _ _ _ _ Hx) as (lg & c & pa & st & r & e & Hp & _ & S1 & S2 & S3 & S4 & S5 & S6).
    iApply wp_bind. iApply wp_malloc. iIntros (new) "N". getown Hp.
    iApply wp_bind. iApply (wp_strdup_null h lg (sc_language y)); [done|]. iFrame "H". iIntros (lg') "H XL". iApply wp_bind. iApply wp_union_clone; [done..|]. iFrame "H". iIntros (c') "H XC".
    iApply wp_bind. iApply (wp_generic_clone Hc); [done..|]. iFrame "H". iIntros (pa') "H XP". iApply wp_bind. iApply wp_statement_clone; [done..|]. iFrame "H". iIntros (st') "H XS".
    iApply wp_bind. iApply wp_interface_clone; [done..|]. iFrame "H". iIntros (r') "H XR". iApply wp_bind. iApply (wp_generic_clone Hc); [done..|]. iFrame "H". iIntros (e') "H XE". putp "N".
    iApply wp_bind. iApply wp_set_scop_next. iFrame "L". iIntros "L". iApply (IH nx new y); [done|done|cbn in Hf; lia|]. iFrame "H". iSplitL "N XL XC XP XS XR XE".
    { iExists (lg', c', pa', st', r', e'). iSplitL "N"; [done|]. iSplitL "XL"; [done|]. iSplitL "XC"; [done|]. iSplitL "XP"; [done|]. iSplitL "XS"; [done|]. iSplitL "XR"; done. }
    iIntros "H N". iApply ("K" with "H"). unfold m_scops. rewrite (M_chain_cons _ last). iExists new. iFrame.
Qed.
Lemma wp_scop_clone h p l (Q : _ → oprop) : sees h (m_scops p l) → Forall (clonable_scop cfg) l →
  own h ∗ (∀ q, own h -∗ M (m_scops q l) -∗ Q q) ⊢ wp (osl_scop_clone_f p) Q.
Proof.
  intros Hs Hl. apply (wp_loop_on (List.length l)); [eapply own_size; [apply scops_size|done]|]. intros [|k] Hk; [lia|]. cbn [scop_clone_loop_b].
  rewrite (sees_chain_null _ scop_nonnull _ _ _ Hs). iIntros "[H K]". destruct l as [|x l].
  - iApply wp_ret. by iApply ("K" with "H").
  - inversion Hl as [|? ? (C1 & C2 & C3 & [C4 C4'] & C5) Hl']; subst. apply sees_chain_cons in Hs as (nx & Hx & Hr). destruct (sees_scop _ _ _ _ Hx) as (lg & c & pa & st & r & e & Hp & _ & S1 & S2 & S3 & S4 & S5 & S6).
    iApply wp_bind. iApply wp_malloc. iIntros (new) "N". getown Hp.
    iApply wp_bind. iApply (wp_strdup_null h lg (sc_language x)); [done|]. iFrame "H". iIntros (lg') "H XL". iApply wp_bind. iApply wp_union_clone; [done..|]. iFrame "H". iIntros (c') "H XC".
    iApply wp_bind. iApply (wp_generic_clone Hc); [done..|]. iFrame "H". iIntros (pa') "H XP". iApply wp_bind. iApply wp_statement_clone; [done..|]. iFrame "H". iIntros (st') "H XS".
    iApply wp_bind. iApply wp_interface_clone; [done..|]. iFrame "H". iIntros (r') "H XR". iApply wp_bind. iApply (wp_generic_clone Hc); [done..|]. iFrame "H". iIntros (e') "H XE". putp "N".
    iApply wp_bind. iApply wp_ret. iApply (wp_scop_clone_rest h l nx new x); [done|done|cbn in Hk; lia|]. iFrame "H". iSplitL "N XL XC XP XS XR XE".
    { iExists (lg', c', pa', st', r', e'). iSplitL "N"; [done|]. iSplitL "XL"; [done|]. iSplitL "XC"; [done|]. iSplitL "XP"; [done|]. iSplitL "XS"; [done|]. iSplitL "XR"; done. }
    iIntros "H N". iApply ("K" with "H N").
Qed.
Lemma wp_names_clone h p x (Q : _ → oprop) : sees h (m_names p x) → has_array (n_params x) → has_array (n_iters x) → has_array (n_scatt x) → has_array (n_locals x) → has_array (n_arrays x) →
  own h ∗ (∀ q, own h -∗ M (m_names q x) -∗ Q q) ⊢ wp (osl_names_clone_f p) Q.
Proof.
  intros [[[[[a b] c] d] e] H]%sees_somewhere H1 H2 H3 H4 H5. apply sees_beside in H as [[Hp Hn]%sees_cell H]. apply sees_beside in H as [Sa H]. apply sees_beside in H as [Sb H]. apply sees_beside in H as [Sc H]. apply sees_beside in H as [Sd Se].
  unfold osl_names_clone_f. rewrite (null_ne p Hn). iIntros "[H K]". iApply wp_bind. iApply wp_malloc. iIntros (q) "N". getown Hp.
  iApply wp_bind. iApply wp_strings_clone; [done|]. iFrame "H". rewrite (strings_clone_same _ H1). iIntros (a') "H XA". iApply wp_bind. iApply wp_strings_clone; [done|]. iFrame "H". rewrite (strings_clone_same _ H2). iIntros (b') "H XB".
  iApply wp_bind. iApply wp_strings_clone; [done|]. iFrame "H". rewrite (strings_clone_same _ H3). iIntros (c') "H XC". iApply wp_bind. iApply wp_strings_clone; [done|]. iFrame "H". rewrite (strings_clone_same _ H4). iIntros (d') "H XD".
  iApply wp_bind. iApply wp_strings_clone; [done|]. iFrame "H". rewrite (strings_clone_same _ H5). iIntros (e') "H XE". putp "N". iApply wp_ret. iApply ("K" with "H").
  iExists (a', b', c', d', e'). iSplitL "N"; [done|]. iSplitL "XA"; [done|]. iSplitL "XB"; [done|]. iSplitL "XC"; [done|]. iSplitL "XD"; done.
Qed.
End CLONE.
