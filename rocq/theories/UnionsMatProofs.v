(** * UnionsMatProofs: osl_scop_remove_unions in memory *)
From stdpp Require Import gmap.
From iris.proofmode Require Import tactics.
From Coq Require Import ZifyBool ZifyNat.
From Verif Require Import Base Spec IntModel VectorModel RelationModel RelSpec LoopLemmas UtilModel StringsModel RelTextModel ExtModel HeapModel HeapObjects HeapSpec HeapLogic HeapProofs PayloadModel PayloadSpec PayloadProofs PayloadProofs2 PayloadProofs3 PayloadProofs4 PayloadProofs5 PayloadProofs6 MatModel MatSpec MatProofs MatProofs2 MatProofs3 MatProofs4 MatProofs5 MatProofs6 MatProofs7 ScopModel CloneSpec PropClone IrregHeapProofs FullModel FullSpec FullProofs FullProofs2 FullProofs3 FullProofs4 FullProofs5 ReadHeapProofs SaveHeapModel SaveHeapSpec SaveHeapProofs SaveHeapProofs2 SaveHeapProofs3 ReadMatModel ReadMatProofs ReadMatProofs2 ListMatModel ListMatSpec ListMatProofs ListMatProofs2 UnionsMatModel UnionsMatSpec.
Local Open Scope string_scope.
Local Open Scope list_scope.
Local Open Scope Z_scope.
Local Open Scope bi_scope.

Section R.
Context {cfg : config} {al : Allocator obj}.
Context (Hc : config_ok cfg).

Lemma pieces_cons s : (∃ y ys, pieces s = y :: ys)%type.
Proof. unfold pieces. destruct (st_domain s), (st_scattering s); cbn; eauto. Qed.
Fixpoint kept_from (cur : list statement) (l : list statement) : list statement :=
  match l with [] => cur | s :: l' => firstn 1 cur ++ kept_from (pieces s) l' end.
Fixpoint lost_from (cur : list statement) (l : list statement) : list (list statement) :=
  match l with [] => [] | s :: l' => tl cur :: lost_from (pieces s) l' end.
Lemma kept_from_pieces s l : kept_from (pieces s) l = kept_pieces (s :: l).
Proof. revert s. induction l as [|y l IH]; intros s; [done|]. cbn [kept_from]. rewrite IH. done. Qed.
Lemma lost_from_pieces s l : lost_from (pieces s) l = lost_pieces (s :: l).
Proof. revert s. induction l as [|y l IH]; intros s; [done|]. cbn [lost_from]. rewrite IH. done. Qed.
Lemma M_stmts_cons p s l : M (m_stmts p (s :: l)) ⊣⊢ ∃ n, M (m_stmt p s n) ∗ M (m_stmts n l).
Proof. unfold m_stmts. apply M_chain_cons. Qed.
Lemma wp_stmt_next p s n (Q : _ → oprop) : M (m_stmt p s n) ∗ (∀ d c a e, M (m_stmt p s n) -∗ Q (d, c, a, e, n)) ⊢ wp (get_stmt_b p) Q.
Proof.
  iIntros "[(%w & A) K]". destruct w as [[[d c] a] e]. iDestruct "A" as "(P & A)". rewrite M_cell. unfold get_stmt_b. iApply wp_bind. iApply wp_get_block. iFrame "P". iIntros "P". iApply wp_ret. iApply "K". iExists (d, c, a, e). iSplitL "P"; done.
Qed.
Lemma wp_unions_loop h l : ∀ st last head pre y ys fuel (Q : _ → oprop), (List.length l < fuel)%nat → sees h (m_stmts st l) → Forall (clonable_statement cfg) l →
  own h ∗ M (m_stmts last (y :: ys)) ∗ (∀ l2, M (m_stmts last l2) -∗ M (m_stmts head (pre ++ l2))) ∗
  (∀ last' cur, own h -∗ M (m_stmts last' cur) -∗ (M (m_stmts last' cur) -∗ M (m_stmts head (pre ++ kept_from (y :: ys) l))) -∗ M (m_stray (lost_from (y :: ys) l)) -∗ Q (head, last')) ⊢
  wp (scop_unions_loop_m fuel st last head) Q.
Proof.
  induction l as [|s l IH]; intros st last head pre y ys [|fuel] Q Hf Hs Hl; try (cbn in Hf; lia); cbn [scop_unions_loop_m]; rewrite (sees_chain_null _ stmt_nonnull _ _ _ Hs); iIntros "(H & L & W & K)".
  - iApply wp_ret. iApply ("K" with "H L [W]"); [|by iApply M_nothing]. cbn [kept_from]. iApply "W".
  - inversion Hl; subst. apply sees_chain_cons in Hs as (nx & Hx & Hr). iApply wp_bind. iApply (wp_remove_unions Hc h st s nx); [done|done|]. iFrame "H". iIntros (q) "H N".
    destruct (sees_stmt _ _ _ _ Hx) as (d & c & a & e & Hp & Hz & _). getown Hp.
    iEval (rewrite M_stmts_cons) in "L". iDestruct "L" as (n) "(L & R)". iDestruct (stmt_node with "L") as "[%Ez L]". rewrite Ez.
    iApply wp_bind. iApply wp_set_stmts_next. iFrame "L". iIntros "L". iApply wp_bind. iApply wp_stmt_next. iFrame "L". iIntros (d1 c1 a1 e1) "L".
    destruct (pieces_cons s) as (y2 & ys2 & E2). iEval (rewrite E2) in "N". iApply (IH nx q head (pre ++ [y]) y2 ys2); [cbn in Hf; lia|done|done|]. iFrame "H N". iSplitL "L W".
    { iIntros (l2) "N". rewrite -app_assoc. iApply "W". iApply M_stmts_cons. iExists q. iFrame. }
    iIntros (last' cur) "H C W X". iApply ("K" with "H C [W]").
    + iIntros "C". iSpecialize ("W" with "C"). rewrite -app_assoc. cbn [kept_from]. rewrite E2. done.
    + cbn [lost_from m_stray]. rewrite E2. iApply M_beside. iFrame "X". iApply M_somewhere. iExists n. done.
Qed.
Lemma wp_walk l : ∀ p fuel (Q : _ → oprop), (List.length l < fuel)%nat → M (m_stmts p l) ∗ (M (m_stmts p l) -∗ Q tt) ⊢ wp (scop_unions_walk_m fuel p) Q.
Proof.
  induction l as [|s l IH]; intros p [|fuel] Q Hf; try (cbn in Hf; lia); cbn [scop_unions_walk_m]; iIntros "[L K]"; iDestruct (chain_null m_stmt stmt_nonnull with "L") as "[%E L]"; rewrite E.
  - iApply wp_ret. by iApply "K".
  - iEval (rewrite M_chain_cons) in "L". iDestruct "L" as (n) "(P & L)". iApply wp_bind. iApply wp_stmt_next. iFrame "P". iIntros (d c a e) "P".
    iAssert (M (m_stmts n l) -∗ Q tt)%I with "[P K]" as "K". { iIntros "L". iApply "K". iApply M_stmts_cons. iExists n. iFrame. }
    destruct (isnull n). { iApply wp_ret. by iApply "K". } iApply (IH n); [cbn in Hf; lia|]. iFrame.
Qed.
Lemma wp_scop_statements h st l (Q : _ → oprop) (k : ptr → oprog ptr) : sees h (m_stmts st l) → Forall (clonable_statement cfg) l →
  own h ∗ (∀ q, own h -∗ M (m_stmts q (kept_pieces l)) -∗ M (m_stray (lost_pieces l)) -∗ wp (k q) Q) ⊢
  wp ('(s', last) <== loop (λ k, scop_unions_loop_m k st NULL NULL) ;; loop (λ k, scop_unions_walk_m k last) ;;== k s') Q.
Proof.
  intros Hs Hl. iIntros "[H K]". iApply wp_bind.
  iAssert (wp (loop (λ k, scop_unions_loop_m k st NULL NULL)) (λ '(q, last), ∃ cur, own h ∗ M (m_stmts last cur) ∗ (M (m_stmts last cur) -∗ M (m_stmts q (kept_pieces l))) ∗ M (m_stray (lost_pieces l)))) with "[H]" as "W".
  { iStopProof. etrans; [apply bi.equiv_entails_1_2, bi.sep_emp|]. apply (wp_loop_on (List.length l)); [eapply own_size; [apply stmts_size|done]|]. intros [|fuel] Hf; [lia|]. iIntros "[H _]". cbn [scop_unions_loop_m]. rewrite (sees_chain_null _ stmt_nonnull _ _ _ Hs). destruct l as [|s l].
    - iApply wp_ret. iExists []. iFrame "H". unfold m_stmts. rewrite !M_chain_nil. iSplit; [done|]. iSplitR; [by iIntros "E"|]. by iApply M_nothing.
    - inversion Hl; subst. apply sees_chain_cons in Hs as (nx & Hx & Hr). iApply wp_bind. iApply (wp_remove_unions Hc h st s nx); [done|done|]. iFrame "H". iIntros (q) "H N".
      destruct (sees_stmt _ _ _ _ Hx) as (d & c & a & e & Hp & Hz & _). getown Hp. rewrite isnull_null. destruct (pieces_cons s) as (y2 & ys2 & E2). iEval (rewrite E2) in "N".
      iApply (wp_unions_loop h l nx q q [] y2 ys2); [cbn in Hf; lia|done|done|]. iFrame "H N". iSplitR. { iIntros (l2) "N". done. }
      iIntros (last' cur) "H C W X". iExists cur. iFrame "H C". rewrite -E2 kept_from_pieces lost_from_pieces. iFrame. }
  iApply wp_wand. iFrame "W". iIntros ([q last]) "(%cur & H & C & W & X)". iApply wp_bind. iCombine "H W X K" as "K". iCombine "C K" as "K". iStopProof.
  apply (wp_loop_on (List.length cur)); [apply stmts_size|]. intros fuel Hf. iIntros "(C & H & W & X & K)". iApply (wp_walk cur); [done|]. iFrame "C". iIntros "C". iApply ("K" with "H [W C] X"). by iApply "W".
Qed.
Lemma wp_scop_unions_one h lg c pa st r e y new v (Q : _ → oprop) (k : oprog ptr) :
  sees h (m_str lg (sc_language y)) → sees h (m_relation c (sc_context y)) → sees h (m_generics pa (sc_params y)) → sees h (m_stmts st (sc_stmts y)) →
  sees h (m_ifaces r (sc_registry y)) → sees h (m_generics e (sc_ext y)) → clonable_scop cfg y →
  own h ∗ new ↦ v ∗ (own h -∗ M (m_scop_node new (kept_scop y) NULL) -∗ M (m_stray (lost_pieces (sc_stmts y))) -∗ wp k Q) ⊢
  wp ('(s', last) <== loop (λ k, scop_unions_loop_m k st NULL NULL) ;; loop (λ k, scop_unions_walk_m k last) ;;==
      c' <== osl_relation_clone_m c ;; e' <== osl_generic_clone_f e ;; l' <== (if isnull lg then ret NULL else strdup_p lg) ;; p' <== osl_generic_clone_f pa ;;
      r' <== osl_interface_clone_f r ;; put new (BScop (sc_version y) l' c' p' s' r' e' NULL) ;;== k) Q.
Proof.
  intros S1 S2 S3 S4 S5 S6 (C1 & C2 & C3 & [C4 C4'] & C5). iIntros "(H & N & K)".
  iApply (wp_scop_statements h st (sc_stmts y)); [done..|]. iFrame "H". iIntros (st') "H XS X".
  iApply wp_bind. iApply (wp_relation_same Hc); [done..|]. iFrame "H". iIntros (c') "H XC". iApply wp_bind. iApply (wp_generic_clone Hc); [done..|]. iFrame "H". iIntros (e') "H XE".
  iApply wp_bind. iApply (wp_strdup_null h lg (sc_language y)); [done|]. iFrame "H". iIntros (lg') "H XL".
  iApply wp_bind. iApply (wp_generic_clone Hc); [done..|]. iFrame "H". iIntros (pa') "H XP". iApply wp_bind. iApply wp_interface_clone; [done..|]. iFrame "H". iIntros (r') "H XR". putp "N".
  iApply ("K" with "H [-X] X"). iExists (lg', c', pa', st', r', e'). iSplitL "N"; [done|]. iSplitL "XL"; [done|]. iSplitL "XC"; [done|]. iSplitL "XP"; [done|]. iSplitL "XS"; [done|]. iSplitL "XR"; done.
Qed.
Lemma M_stray_app l1 l2 : M (m_stray (l1 ++ l2)) ⊣⊢ M (m_stray l1) ∗ M (m_stray l2).
Proof.
  induction l1 as [|x l1 IH]; cbn [app m_stray].
  - rewrite M_nothing. iSplit; [iIntros "$"; done|iIntros "[_ $]"].
  - rewrite !M_beside IH. by rewrite assoc.
Qed.
Lemma scop_node_node p s n : M (m_scop_node p s n) ⊢ <affine> ⌜isnull p = false⌝ ∗ M (m_scop_node p s n).
Proof. iApply (M_null (λ _ : unit, false) (λ _ : unit, m_scop_node p s n) _ tt). intros h H. apply Z.eqb_neq. by eapply scop_node_nonnull. Qed.
Lemma wp_remove_unions_rest h l : ∀ p result last x fuel (Q : _ → oprop), sees h (m_scop_list p l) → Forall (clonable_scop cfg) l → (List.length l < fuel)%nat → isnull result = false →
  own h ∗ M (m_scop_node last x NULL) ∗ (own h -∗ M (m_scop_list last (x :: List.map kept_scop l)) -∗ M (m_stray (lost_scops l)) -∗ Q result) ⊢ wp (scop_remove_unions_loop_m fuel p result last) Q.
Proof.
  induction l as [|y l IH]; intros p result last x [|fuel] Q Hs Hl Hf Hr; try (cbn in Hf; lia); cbn [scop_remove_unions_loop_m]; rewrite (sees_chain_null _ scop_node_nonnull _ _ _ Hs); iIntros "(H & L & K)".
  - iApply wp_ret. iApply ("K" with "H [L]"); [by iApply (M_chain_one m_scop_node)|by iApply M_nothing].
  - inversion Hl; subst. apply sees_chain_cons in Hs as (nx & Hx & Hn). destruct (sees_scop_registry _ _ _ _ Hx) as (lg & c & pa & st & r & e & Hp & S1 & S2 & S3 & S4 & S5 & S6).
    iApply wp_bind. iApply wp_malloc. iIntros (new) "N". getown Hp. iApply (wp_scop_unions_one h lg c pa st r e y new); [done..|]. iFrame "H N". iIntros "H N X". rewrite Hr.
    iApply wp_bind. iApply wp_set_scops_next. iFrame "L". iIntros "L". iApply (IH nx result new (kept_scop y)); [done|done|cbn in Hf; lia|done|]. iFrame "H N".
    iIntros "H N X2". iApply ("K" with "H [L N]").
    + unfold m_scop_list. cbn [List.map]. rewrite (M_chain_cons _ last). iExists new. iFrame.
    + unfold lost_scops. cbn [flat_map]. rewrite M_stray_app. iFrame.
Qed.
Lemma wp_scop_remove_unions_m h p l (Q : _ → oprop) : sees h (m_scop_list p l) → Forall (clonable_scop cfg) l →
  own h ∗ (∀ q, own h -∗ M (m_scop_list q (List.map kept_scop l)) -∗ M (m_stray (lost_scops l)) -∗ Q q) ⊢ wp (osl_scop_remove_unions_m p) Q.
Proof.
  intros Hs Hl. apply (wp_loop_on (List.length l)); [eapply own_size; [apply scops_size|done]|]. intros [|k] Hk; [lia|]. cbn [scop_remove_unions_loop_m].
  rewrite (sees_chain_null _ scop_node_nonnull _ _ _ Hs). iIntros "[H K]". destruct l as [|x l].
  - iApply wp_ret. iApply ("K" with "H"); [|by iApply M_nothing]. unfold m_scop_list. cbn [List.map]. by rewrite M_chain_nil.
  - inversion Hl; subst. apply sees_chain_cons in Hs as (nx & Hx & Hr). destruct (sees_scop_registry _ _ _ _ Hx) as (lg & c & pa & st & r & e & Hp & S1 & S2 & S3 & S4 & S5 & S6).
    iApply wp_bind. iApply wp_malloc. iIntros (new) "N". getown Hp. iApply (wp_scop_unions_one h lg c pa st r e x new); [done..|]. iFrame "H N". iIntros "H N X". rewrite isnull_null.
    iApply wp_bind. iApply wp_ret. iDestruct (scop_node_node with "N") as "[%Ez N]". iApply (wp_remove_unions_rest h l nx new new (kept_scop x)); [done|done|cbn in Hk; lia|done|]. iFrame "H N". iIntros "H N X2". iApply ("K" with "H N").
    unfold lost_scops. cbn [flat_map]. rewrite M_stray_app. iFrame.
Qed.
End R.
