(** * ListMatProofs2: the transformations of statements and scops in memory *)
From stdpp Require Import gmap.
From iris.proofmode Require Import tactics.
From Coq Require Import ZifyBool ZifyNat.
From Verif Require Import Base Spec IntModel VectorModel RelationModel RelSpec LoopLemmas UtilModel StringsModel RelTextModel ExtModel HeapModel HeapObjects HeapSpec HeapLogic HeapProofs PayloadModel PayloadSpec PayloadProofs PayloadProofs2 PayloadProofs3 PayloadProofs4 PayloadProofs5 PayloadProofs6 MatModel MatSpec MatProofs MatProofs2 MatProofs3 MatProofs4 MatProofs5 MatProofs6 MatProofs7 ScopModel CloneSpec PropClone IrregHeapProofs FullModel FullSpec FullProofs FullProofs2 FullProofs3 FullProofs4 FullProofs5 ReadHeapProofs SaveHeapModel SaveHeapSpec SaveHeapProofs SaveHeapProofs2 SaveHeapProofs3 ReadMatModel ReadMatProofs ReadMatProofs2 ListMatModel ListMatSpec ListMatProofs.
Local Open Scope string_scope.
Local Open Scope list_scope.
Local Open Scope Z_scope.
Local Open Scope bi_scope.

Section R.
Context {cfg : config} {al : Allocator obj}.

(** ** Splitting a statement *)
Context (Hc : config_ok cfg).
Lemma nclone_one r u : wf_rel cfg r → osl_relation_nclone (r :: u) 1 = Ok [r].
Proof.
  intros Hr. pose proof (clone_union Hc [r] ltac:(by constructor)) as E. unfold osl_relation_clone, osl_relation_nclone in E |- *.
  change (1 =? -1) with false. rewrite RelationProofs2.nb_components_length. cbv zeta. rewrite LoopLemmas.zlength_cons. pose proof (LoopLemmas.zlength_nonneg u).
  destruct (Z.ltb_spec (1 + zlength u) 1); [lia|]. cbn in E |- *. exact E.
Qed.
Lemma wp_clone_one h p u (Q : _ → oprop) : sees h (m_relation p u) → Forall (wf_rel cfg) u →
  own h ∗ (∀ q, own h -∗ M (m_relation q (firstn 1 u)) -∗ Q q) ⊢ wp (osl_relation_clone_one_safe_m p) Q.
Proof.
  intros Hs Hu. unfold osl_relation_clone_one_safe_m. rewrite (sees_relation_null _ _ _ Hs). iIntros "[H K]". destruct u as [|r u].
  - iApply wp_ret. iApply ("K" with "H"). by rewrite M_relation_nil.
  - inversion Hu; subst. pose proof (nclone_one r u ltac:(done)) as E.
    assert (Hsim : sim (osl_relation_nclone (r :: u) 1) (osl_relation_nclone_m p 1) (λ _ q, Q q) ⊢ wp (osl_relation_nclone_m p 1) Q) by (rewrite E; cbn [sim]; done).
    iApply Hsim. iApply sim_eq. iApply (sim_nclone h); [done|]. iFrame "H". iIntros (l' q) "H U %E'". assert (l' = firstn 1 (r :: u)) as -> by (cbn [firstn]; rewrite firstn_O; congruence). by iApply ("K" with "H").
Qed.
Lemma wp_piece h d c a e ud uc ua ue (Q : _ → oprop) :
  sees h (m_relation d ud) → sees h (m_relation c uc) → sees h (m_relations a ua) → sees h (m_generics e ue) → Forall (wf_rel cfg) ud → Forall (wf_rel cfg) uc → Forall (Forall (wf_rel cfg)) ua → clonable_generics cfg ue →
  own h ∗ (∀ new, own h -∗ M (m_stmt new (Statement (firstn 1 ud) (firstn 1 uc) ua ue) NULL) -∗ Q new) ⊢ wp (piece_m d c a e) Q.
Proof.
  intros Sd Ss Sa Se Cd Cs Ca Ce. iIntros "(H & K)". unfold piece_m. iApply wp_bind. iApply wp_malloc. iIntros (new) "N".
  iApply wp_bind. iApply wp_clone_one; [done..|]. iFrame "H". iIntros (d') "H D". iApply wp_bind. iApply wp_clone_one; [done..|]. iFrame "H". iIntros (s') "H S".
  iApply wp_bind. iApply (wp_relations_same Hc); [done..|]. iFrame "H". iIntros (a') "H A". iApply wp_bind. iApply (wp_generic_clone Hc); [done..|]. iFrame "H". iIntros (e') "H E". putp "N". iApply wp_ret. iApply ("K" with "H").
  iExists (d', s', a', e'). iSplitL "N"; [done|]. iSplitL "D"; [done|]. iSplitL "S"; [done|]. iSplitL "A"; done.
Qed.
(** The list built so far, whose last node can be linked. *)
Definition acc (result last : ptr) (built : list statement) : oprop :=
  match built with
  | [] => <affine> ⌜result = NULL⌝
  | _ => <affine> ⌜isnull result = false⌝ ∗ ∃ pre x, <affine> ⌜built = (pre ++ [x])%list⌝ ∗ M (m_stmt last x NULL) ∗
           (∀ n l2, M (m_stmt last x n) -∗ M (m_stmts n l2) -∗ M (m_stmts result (pre ++ x :: l2)))
  end.
Lemma acc_cons result last pre x : <affine> ⌜isnull result = false⌝ ∗ M (m_stmt last x NULL) ∗
  (∀ n l2, M (m_stmt last x n) -∗ M (m_stmts n l2) -∗ M (m_stmts result (pre ++ x :: l2))) ⊢ acc result last (pre ++ [x]).
Proof.
  iIntros "(%E & A & K)". unfold acc. destruct (pre ++ [x])%list as [|y l] eqn:El; [by destruct pre|]. iSplit; [done|]. iExists pre, x. iFrame. done.
Qed.
Lemma acc_done result last built : acc result last built ⊢ M (m_stmts result built).
Proof.
  destruct built as [|y l]; cbn [acc].
  - unfold m_stmts. by rewrite M_chain_nil.
  - iIntros "(%E & %pre & %x & %El & A & K)". rewrite El. iApply ("K" with "A"). unfold m_stmts. by rewrite M_chain_nil.
Qed.
Lemma stmt_node p s n : M (m_stmt p s n) ⊢ <affine> ⌜isnull p = false⌝ ∗ M (m_stmt p s n).
Proof. iApply (M_null (λ _ : unit, false) (λ _ : unit, m_stmt p s n) _ tt). intros h H. apply Z.eqb_neq. by eapply stmt_nonnull. Qed.
Lemma wp_link result last built new y (Q : _ → oprop) : acc result last built ∗ M (m_stmt new y NULL) ∗
  (<affine> ⌜isnull (if isnull result then new else result) = false⌝ -∗ acc (if isnull result then new else result) new (built ++ [y]) -∗ Q tt) ⊢
  wp (if isnull result then ret tt else set_stmt_next_b last new) Q.
Proof.
  iIntros "(A & N & K)". iDestruct (stmt_node with "N") as "[%En N]". destruct built as [|z l]; cbn [acc].
  - iDestruct "A" as "%E". subst result. rewrite isnull_null. iApply wp_ret. iApply "K"; [done|]. iApply (acc_cons new new []). iSplit; [done|]. iFrame "N". iIntros (n l2) "A L". cbn [app].
    unfold m_stmts. rewrite M_chain_cons. iExists n. iFrame.
  - iDestruct "A" as "(%E & %pre & %x & %El & A & W)". rewrite E. iApply wp_set_stmts_next. iFrame "A". iIntros "A". iApply "K"; [done|]. rewrite El. iApply acc_cons. iSplit; [done|]. iFrame "N".
    iIntros (n l2) "N L". rewrite -app_assoc. iApply ("W" with "A"). unfold m_stmts. rewrite M_chain_cons. iExists n. iFrame.
Qed.
Lemma singly_one u : firstn 1 u = List.hd [] (singly u).
Proof. by destruct u as [|r [|r' u]]. Qed.
Lemma wp_scat_loop h d a e ud ua ue uc : ∀ c result last built fuel (Q : _ → oprop),
  sees h (m_relation d ud) → sees h (m_relation c uc) → sees h (m_relations a ua) → sees h (m_generics e ue) → Forall (wf_rel cfg) ud → Forall (wf_rel cfg) uc → Forall (Forall (wf_rel cfg)) ua → clonable_generics cfg ue →
  (List.length uc < fuel)%nat →
  own h ∗ acc result last built ∗ (∀ result' last', own h -∗ <affine> ⌜isnull result' = false⌝ -∗ acc result' last' (built ++ List.map (λ c, Statement (firstn 1 ud) c ua ue) (singly uc)) -∗ Q (result', last')) ⊢
  wp (remove_unions_scat_loop_m fuel d c a e result last) Q.
Proof.
  induction uc as [|r uc IH]; intros c result last built [|fuel] Q Sd Sc Sa Se Cd Cs Ca Ce Hf; try (cbn in Hf; lia); cbn [remove_unions_scat_loop_m];
    iIntros "(H & A & K)"; iApply wp_bind; (iApply (wp_piece h d c a e); [done..|]); iFrame "H"; iIntros (new) "H N"; iApply wp_bind; iApply wp_link; iFrame "A N"; iIntros "%Er A"; cbv zeta; rewrite (sees_relation_null _ _ _ Sc).
  - iApply wp_ret. iApply ("K" with "H"); [done|]. done.
  - destruct (sees_relation_cons _ _ _ _ Sc) as (n & (m & E & _)%sees_part & Sl). iApply wp_bind. iApply wp_get_part_own; [done|]. iFrame "H". iIntros "H". rewrite (sees_relation_null _ _ _ Sl).
    destruct uc as [|r2 uc]. { iApply wp_ret. iApply ("K" with "H"); [done|]. done. }
    inversion Cs; subst. iApply (IH n); [done..|cbn in Hf |- *; lia|]. iFrame "H A". iIntros (result' last') "H E A". iApply ("K" with "H E"). rewrite -app_assoc. done.
Qed.
Lemma wp_dom_loop h c a e uc ua ue ud : ∀ d result last built fuel (Q : _ → oprop),
  sees h (m_relation d ud) → sees h (m_relation c uc) → sees h (m_relations a ua) → sees h (m_generics e ue) → Forall (wf_rel cfg) ud → Forall (wf_rel cfg) uc → Forall (Forall (wf_rel cfg)) ua → clonable_generics cfg ue →
  (List.length ud < fuel)%nat →
  own h ∗ acc result last built ∗ (∀ result', own h -∗ M (m_stmts result' (built ++ flat_map (λ d, List.map (λ c, Statement d c ua ue) (singly uc)) (singly ud))) -∗ Q result') ⊢
  wp (remove_unions_dom_loop_m fuel d c a e result last) Q.
Proof.
  induction ud as [|r ud IH]; intros d result last built [|fuel] Q Sd Sc Sa Se Cd Cs Ca Ce Hf; try (cbn in Hf; lia); cbn [remove_unions_dom_loop_m]; iIntros "(H & A & K)"; iApply wp_bind.
  - iCombine "A K" as "K". iCombine "H K" as "K". iStopProof. apply (wp_loop_on (List.length uc)); [eapply own_size; [apply m_relation_size|exact Sc]|]. intros n Hn. iIntros "(H & A & K)".
    iApply (wp_scat_loop h d a e [] ua ue uc c); [done..|]. iFrame "H A". iIntros (result' last') "H _ A". rewrite (sees_relation_null _ _ _ Sd). iApply wp_ret. iApply ("K" with "H"). iPoseProof (acc_done with "A") as "A".
    cbn [singly flat_map]. rewrite app_nil_r. done.
  - iCombine "A K" as "K". iCombine "H K" as "K". iStopProof. apply (wp_loop_on (List.length uc)); [eapply own_size; [apply m_relation_size|exact Sc]|]. intros n Hn. iIntros "(H & A & K)".
    iApply (wp_scat_loop h d a e (r :: ud) ua ue uc c); [done..|]. iFrame "H A". iIntros (result' last') "H _ A". rewrite (sees_relation_null _ _ _ Sd).
    destruct (sees_relation_cons _ _ _ _ Sd) as (n' & (m & E & _)%sees_part & Sl). iApply wp_bind. iApply wp_get_part_own; [done|]. iFrame "H". iIntros "H". rewrite (sees_relation_null _ _ _ Sl).
    destruct ud as [|r2 ud].
    + iApply wp_ret. iApply ("K" with "H"). iPoseProof (acc_done with "A") as "A". cbn [singly List.map flat_map]. rewrite app_nil_r. done.
    + inversion Cd; subst. iApply (IH n'); [done..|cbn in Hf |- *; lia|]. iFrame "H A". iIntros (result2) "H A". iApply ("K" with "H"). rewrite -app_assoc. done.
Qed.
Lemma wp_remove_unions h p s n (Q : _ → oprop) : sees h (m_stmt p s n) → clonable_statement cfg s →
  own h ∗ (∀ q, own h -∗ M (m_stmts q (pieces s)) -∗ Q q) ⊢ wp (osl_statement_remove_unions_m p) Q.
Proof.
  intros Hs (Cd & Cs & Ca & Ce). iIntros "[H K]". unfold osl_statement_remove_unions_m. destruct (sees_stmt _ _ _ _ Hs) as (d & c & a & e & Hp & Hz & Sd & Ss & Sa & Se).
  assert (isnull p = false) as -> by (now apply Z.eqb_neq). getown Hp.
  iCombine "H K" as "K". iStopProof. apply (wp_loop_on (List.length (st_domain s))); [eapply own_size; [apply m_relation_size|exact Sd]|]. intros k Hk. iIntros "(H & K)".
  iApply (wp_dom_loop h c a e (st_scattering s) (st_access s) (st_ext s) (st_domain s) d NULL NULL []); [done..|]. iFrame "H". iSplitR; [done|]. iIntros (q) "H L". by iApply ("K" with "H").
Qed.

(** ** Normalizing the scatterings of a scop *)
Lemma wp_max_nout l : ∀ p m fuel (Q : _ → oprop), (List.length l < fuel)%nat →
  M (m_stmts p l) ∗ (M (m_stmts p l) -∗ Q (fold_left max_nout l m)) ⊢ wp (max_nout_loop fuel p m) Q.
Proof.
  induction l as [|s l IH]; intros p m [|fuel] Q Hf; try (cbn in Hf; lia); cbn [max_nout_loop fold_left]; unfold m_stmts.
  - rewrite M_chain_nil. iIntros "[%E K]". subst p. rewrite isnull_null. iApply wp_ret. by iApply "K".
  - iIntros "[L K]". iEval (rewrite M_chain_cons) in "L". iDestruct "L" as (n) "[(%w & P) R]". destruct w as [[[d c] a] e]. iDestruct "P" as "(P & D & C & A)". rewrite M_cell. iDestruct (isnull_false with "P") as "[%Ep P]". rewrite Ep.
    get "P". iDestruct (relation_null with "C") as "[%Ec C]".
    iAssert (wp (if isnull c then ret m else '(r, _, _) <== get_part c ;; ret (Z.max m (nout r))) (λ m', <affine> ⌜m' = max_nout m s⌝ ∗ M (m_relation c (st_scattering s)))) with "[C]" as "W".
    { rewrite Ec. unfold max_nout. destruct (st_scattering s) as [|r u].
      - iApply wp_ret. by iFrame.
      - iEval (rewrite M_relation_cons) in "C". iDestruct "C" as (n') "[C U]". iEval (rewrite M_part) in "C". iDestruct "C" as (mm) "(C & A)". iApply wp_bind. iApply wp_get_part. iFrame "C". iIntros "C". iApply wp_ret. iSplit; [done|]. rewrite M_relation_cons. iExists n'. iFrame "U". rewrite M_part. iExists mm. iFrame. }
    iApply wp_bind. iApply wp_wand. iFrame "W". iIntros (m') "[-> C]". iApply (IH n); [cbn in Hf; lia|]. iFrame "R". iIntros "R". iApply "K". rewrite M_chain_cons. iExists n. iFrame "R". iExists (d, c, a, e). iSplitL "P"; [done|]. iSplitL "D"; [done|]. iSplitL "C"; done.
Qed.
(** All the parts of the scattering have the same precision: osl_relation_extend_output takes that of the first one. *)
Definition same_precision (u : list relation) : Prop := match u with [] => True | r :: u' => Forall (λ x, rprec x = rprec r) u' end.
Lemma sim_normalize dim l : ∀ p fuel Q, (List.length l < fuel)%nat → Forall (λ s, same_precision (st_scattering s)) l →
  M (m_stmts p l) ∗ (∀ l', M (m_stmts p l') -∗ Q l' tt) ⊢ sim (mapM (normalize_statement dim) l) (normalize_loop fuel p dim) Q.
Proof.
  induction l as [|s l IH]; intros p [|fuel] Q Hf Hl; try (cbn in Hf; lia); cbn [normalize_loop mapM]; unfold m_stmts.
  - rewrite M_chain_nil. iIntros "[%E K]". subst p. rewrite isnull_null. iApply sim_ret. iApply "K". by rewrite M_chain_nil.
  - iIntros "[L K]". iEval (rewrite M_chain_cons) in "L". iDestruct "L" as (n) "[(%w & P) R]". destruct w as [[[d c] a] e]. iDestruct "P" as "(P & D & C & A & E)". rewrite M_cell. iDestruct (isnull_false with "P") as "[%Ep P]". rewrite Ep.
    inversion Hl as [|? ? Hs Hl']; subst. iApply sim_heap. iApply wp_bind. iApply wp_get_block. iFrame "P". iIntros "P". iApply wp_ret. iDestruct (relation_null with "C") as "[%Ec C]". rewrite Ec. unfold normalize_statement at 1. destruct (st_scattering s) as [|r u] eqn:Eu.
    + cbn [bind]. iApply sim_heap. iApply wp_ret. iApply sim_map. iApply IH; [cbn in Hf; lia|done|]. iFrame "R". iIntros (l') "R". iApply "K". rewrite M_chain_cons. iExists n. iFrame "R". iExists (d, c, a, e). rewrite Eu. iSplitL "P"; [done|]. iSplitL "D"; [done|]. iSplitL "C"; [done|]. iSplitL "A"; done.
    + rewrite (M_own (m_relation c (r :: u))). iDestruct "C" as (hc) "[%Hcc C]". iApply sim_bind. iApply sim_bind. iApply (sim_extend_output hc c r u dim); [exact Hs|by apply sees_self|]. iFrame "C". iIntros (u' q) "C X". iPoseProof (M_back _ _ Hcc with "C") as "C".
      cbn [sim]. iApply wp_bind. iApply MatProofs6.wp_relation_free. iFrame "C". iApply wp_put. iFrame "P". iIntros "P".
      iApply sim_map. iApply IH; [cbn in Hf; lia|done|]. iFrame "R". iIntros (l') "R". iApply "K". rewrite M_chain_cons. iExists n. iFrame "R". iExists (d, q, a, e). cbn [st_domain st_scattering st_access st_ext]. iSplitL "P"; [done|]. iSplitL "D"; [done|]. iSplitL "X"; [done|]. iSplitL "A"; done.
Qed.
Lemma sim_normalize_scattering p l Q : match l with [] => True | s :: _ => Forall (λ s, same_precision (st_scattering s)) (sc_stmts s) end →
  M (m_scop_list p l) ∗ (∀ l', M (m_scop_list p l') -∗ Q l' tt) ⊢ sim (osl_scop_normalize_scattering l) (osl_scop_normalize_scattering_m p) Q.
Proof.
  intros Hl. iIntros "[L K]". unfold osl_scop_normalize_scattering, osl_scop_normalize_scattering_m, m_scop_list. destruct l as [|s l].
  - iEval (rewrite M_chain_nil) in "L". iDestruct "L" as "%E". subst p. rewrite isnull_null. iApply sim_ret. iApply "K". by rewrite M_chain_nil.
  - iEval (rewrite M_chain_cons) in "L". iDestruct "L" as (n) "[(%w & P) R]". destruct w as [[[[[lg c] pa] st] r] e]. iDestruct "P" as "(P & L & C & A & S & G & E)". rewrite M_cell.
    iDestruct (isnull_false with "P") as "[%Ep P]". rewrite Ep. iApply sim_heap. iApply wp_bind. iApply wp_get_block. iFrame "P". iIntros "P". iApply wp_ret. 
    iAssert (∀ l', M (m_stmts st l') -∗ Q (Scop (sc_version s) (sc_language s) (sc_context s) (sc_params s) l' (sc_registry s) (sc_ext s) :: l) tt)%I with "[P L C A G E R K]" as "K".
    { iIntros (l') "S". iApply "K". rewrite M_chain_cons. iExists n. iFrame "R". iExists (lg, c, pa, st, r, e). cbn [sc_version sc_language sc_context sc_params sc_stmts sc_registry sc_ext].
      iSplitL "P"; [done|]. iSplitL "L"; [done|]. iSplitL "C"; [done|]. iSplitL "A"; [done|]. iSplitL "S"; [done|]. iSplitL "G"; done. }
    iDestruct (chain_null m_stmt stmt_nonnull with "S") as "[%Est S]". rewrite Est. destruct (sc_stmts s) as [|y sl] eqn:El.
    + cbn [mapM bind]. iApply sim_ret. by iApply "K".
    + cbv zeta. iApply sim_heap. iCombine "S K" as "K". iStopProof. apply (wp_loop_on (List.length (y :: sl))); [exact (stmts_size st (y :: sl))|]. intros k Hk. iIntros "[S K]". iApply wp_max_nout; [done|]. iFrame "S". iIntros "S".
      iApply sim_map. iCombine "S K" as "K". iStopProof. apply (sim_loop_on _ (List.length (y :: sl))); [exact (stmts_size st (y :: sl))|]. intros k' Hk'. iIntros "[S K]". iApply sim_normalize; [done|done|]. iFrame "S". iIntros (l') "S". by iApply "K".
Qed.
End R.
