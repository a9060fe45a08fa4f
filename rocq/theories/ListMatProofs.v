(** * ListMatProofs: unions and lists of relations in memory *)
From stdpp Require Import gmap.
From iris.proofmode Require Import tactics.
From Coq Require Import ZifyBool ZifyNat.
From Verif Require Import Base Spec IntModel VectorModel RelationModel RelSpec LoopLemmas UtilModel StringsModel RelTextModel ExtModel HeapModel HeapObjects HeapSpec HeapLogic HeapProofs PayloadModel PayloadSpec PayloadProofs PayloadProofs2 PayloadProofs3 PayloadProofs4 PayloadProofs5 PayloadProofs6 MatModel MatSpec MatProofs MatProofs2 MatProofs3 MatProofs4 MatProofs5 MatProofs6 ScopModel CloneSpec PropClone IrregHeapProofs FullModel FullSpec FullProofs FullProofs2 FullProofs3 FullProofs4 FullProofs5 ReadHeapProofs SaveHeapModel SaveHeapSpec SaveHeapProofs SaveHeapProofs2 SaveHeapProofs3 ReadMatModel ReadMatProofs ReadMatProofs2 ListMatModel ListMatSpec.
Local Open Scope string_scope.
Local Open Scope list_scope.
Local Open Scope Z_scope.
Local Open Scope bi_scope.

Section R.
Context {cfg : config} {al : Allocator obj}.

(** ** Unions *)
Lemma wp_part_next p r n (Q : _ → oprop) : M (m_part p r n) ∗ (∀ x m, M (m_part p r n) -∗ Q (x, m, n)) ⊢ wp (get_part p) Q.
Proof.
  iIntros "[P K]". iEval (rewrite M_part) in "P". iDestruct "P" as (m) "(P & A)". iApply wp_get_part. iFrame "P". iIntros "P". iApply "K". rewrite M_part. iExists m. iFrame.
Qed.
Lemma part_nonnull p r n : M (m_part p r n) ⊢ <affine> ⌜isnull p = false⌝ ∗ M (m_part p r n).
Proof. rewrite M_part. iIntros "(%m & P & A)". iDestruct (isnull_false with "P") as "[$ P]". iExists m. iFrame. Qed.
Lemma part_neq p r n q s n' : M (m_part p r n) ∗ M (m_part q s n') ⊢ <affine> ⌜Z.eqb p q = false⌝ ∗ M (m_part p r n) ∗ M (m_part q s n').
Proof.
  rewrite !M_part. iIntros "[(%m & P & A) (%m' & P' & A')]". iDestruct (cell_neq with "[$P $P']") as "(%Ne & P & P')". rewrite Ne. iSplit; [done|].
  iSplitL "P A"; [iExists m|iExists m']; iFrame.
Qed.
Lemma wp_relation_add_loop_m u : ∀ p r r2 v fuel (Q : _ → oprop), (List.length u < fuel)%nat →
  M (m_relation p (r :: u)) ∗ M (m_relation r2 v) ∗ (M (m_relation p ((r :: u) ++ v)) -∗ Q tt) ⊢ wp (relation_add_loop_m fuel p r2) Q.
Proof.
  induction u as [|r1 u IH]; intros p r r2 v [|fuel] Q Hf; try (cbn in Hf; lia); cbn [relation_add_loop_m]; rewrite M_relation_cons.
  - iIntros "((%n & P & U) & V & K)". rewrite M_relation_nil. iDestruct "U" as "%E". subst n. iApply wp_bind. iApply wp_part_next. iFrame "P". iIntros (x m) "P".
    rewrite isnull_null. iApply wp_set_part_next. iFrame "P". iIntros "P". iApply "K". cbn [app]. rewrite M_relation_cons. iExists r2. iFrame.
  - iIntros "((%n & P & U) & V & K)". iApply wp_bind. iApply wp_part_next. iFrame "P". iIntros (x m) "P". iDestruct (relation_null with "U") as "[%E U]". rewrite E.
    iApply (IH n r1 r2 v); [cbn in Hf; lia|]. iFrame "U V". iIntros "U". iApply "K". cbn [app]. rewrite (M_relation_cons p). iExists n. iFrame.
Qed.
Lemma wp_relation_add_m p u q v (Q : _ → oprop) :
  M (m_relation p u) ∗ M (m_relation q v) ∗ (M (m_relation (if isnull p then q else p) (u ++ v)) -∗ Q (if isnull p then q else p)) ⊢ wp (osl_relation_add_m p q) Q.
Proof.
  iIntros "(U & V & K)". iDestruct (relation_null with "U") as "[%E U]". unfold osl_relation_add_m. rewrite E. destruct u as [|r u].
  - iApply wp_ret. iApply "K". cbn [app]. rewrite M_relation_nil. by iDestruct "U" as "_".
  - iApply wp_bind. iCombine "V K" as "K". iCombine "U K" as "K". iStopProof. apply (wp_loop_on (List.length (r :: u))); [apply m_relation_size|]. intros n Hn.
    iIntros "(U & V & K)". iApply (wp_relation_add_loop_m u p r q v); [cbn in Hn; lia|]. iFrame "U V". iIntros "U". iApply wp_ret. by iApply "K".
Qed.
Lemma sim_relation_union h p u q v (Q : list relation → ptr → oprop) : sees h (m_relation p u) → sees h (m_relation q v) →
  own h ∗ (∀ w x, own h -∗ M (m_relation x w) -∗ Q w x) ⊢ sim (osl_relation_union u v) (osl_relation_union_m p q) Q.
Proof.
  intros Hu Hv. unfold osl_relation_union_m. rewrite (sees_relation_null _ _ _ Hu) (sees_relation_null _ _ _ Hv). iIntros "[H K]". destruct u as [|r u], v as [|s v]; cbn [andb].
  { iApply sim_ret. iApply ("K" with "H"). by rewrite M_relation_nil. }
  all: unfold osl_relation_union; iApply sim_bind; iApply (sim_clone h); [done|]; iFrame "H"; iIntros (c1 q1) "H C1";
    iApply sim_bind; iApply (sim_clone h); [done|]; iFrame "H"; iIntros (c2 q2) "H C2"; rewrite osl_relation_add_app; cbn [sim];
    iApply wp_relation_add_m; iFrame "C1 C2"; iIntros "U"; by iApply ("K" with "H").
Qed.
Lemma M_parts_cons p r u q : M (m_parts p (r :: u) q) ⊣⊢ ∃ n, M (m_part p r n) ∗ M (m_parts n u q).
Proof. cbn [m_parts]. rewrite M_somewhere. apply bi.exist_proper. intros n. apply M_beside. Qed.
Lemma M_parts_nil p q : M (m_parts p [] q) ⊣⊢ <affine> ⌜p = q⌝.
Proof. apply M_nothing. Qed.
Lemma m_parts_size u : ∀ p q, M (m_parts p u q) ⊢ size_ge (List.length u).
Proof.
  induction u as [|x u IH]; intros p q; cbn [m_parts]; [apply size_ge_0|]. apply size_somewhere. intros n.
  apply size_more; [|apply IH]. unfold m_part. apply size_somewhere. intros m. apply size_first, size_cell.
Qed.
Lemma wp_remove_part_loop_m u : ∀ p prev rp q r n v fuel (Q : _ → oprop), (List.length u < fuel)%nat →
  M (m_part prev rp p) ∗ M (m_parts p u q) ∗ M (m_part q r n) ∗ M (m_relation n v) ∗ (M (m_relation prev (rp :: u ++ v)) -∗ Q tt) ⊢ wp (remove_part_loop_m fuel p prev q) Q.
Proof.
  induction u as [|r1 u IH]; intros p prev rp q r n v [|fuel] Q Hf; try (cbn in Hf; lia); cbn [remove_part_loop_m].
  - rewrite M_parts_nil. iIntros "(P & %E & H & V & K)". subst p. iDestruct (part_nonnull with "H") as "[%E H]". rewrite E. iApply wp_bind. iApply wp_part_next. iFrame "H". iIntros (x m) "H".
    rewrite Z.eqb_refl. iApply wp_bind. iApply wp_set_part_next. iFrame "P". iIntros "P". iApply wp_bind. iApply wp_set_part_next. iFrame "H". iIntros "H".
    iApply (MatProofs6.wp_relation_free q [r]). iSplitL "H"; [by iApply M_relation_one|]. iApply "K". cbn [app]. rewrite M_relation_cons. iExists n. iFrame.
  - rewrite M_parts_cons. iIntros "(P & (%n1 & H1 & U) & H & V & K)". iDestruct (part_nonnull with "H1") as "[%E H1]". rewrite E. iApply wp_bind. iApply wp_part_next. iFrame "H1". iIntros (x m) "H1".
    iDestruct (part_neq with "[$H1 $H]") as "(%Ne & H1 & H)". rewrite Ne. iApply (IH n1 p r1 q r n v); [cbn in Hf; lia|]. iFrame "H1 U H V". iIntros "U". iApply "K".
    cbn [app]. rewrite (M_relation_cons prev). iExists p. iFrame.
Qed.
Lemma wp_remove_part_m p rp u q r n v (Q : _ → oprop) :
  M (m_parts p (rp :: u) q) ∗ M (m_part q r n) ∗ M (m_relation n v) ∗ (M (m_relation p (rp :: u ++ v)) -∗ Q p) ⊢ wp (osl_relation_remove_part_m p q) Q.
Proof.
  rewrite M_parts_cons. iIntros "((%np & P & U) & H & V & K)". unfold osl_relation_remove_part_m.
  iDestruct (part_nonnull with "P") as "[%Ep P]". iDestruct (part_nonnull with "H") as "[%Eq H]". rewrite Ep Eq. cbn [orb].
  iDestruct (part_neq with "[$P $H]") as "(%Ne & P & H)". rewrite Ne. iApply wp_bind. iApply wp_part_next. iFrame "P". iIntros (x m) "P". iApply wp_bind.
  iCombine "P H V K" as "K". iCombine "U K" as "K". iStopProof. apply (wp_loop_on (List.length u)); [apply m_parts_size|]. intros k Hk.
  iIntros "(U & P & H & V & K)". iApply (wp_remove_part_loop_m u np p rp q r n v); [done|]. iFrame "P U H V". iIntros "U". iApply wp_ret. by iApply "K".
Qed.
Lemma wp_remove_absent_loop_m part h u : ∀ p prev fuel (Q : _ → oprop), (List.length u < fuel)%nat → sees h (m_relation p u) → h !! part = None →
  own h ∗ (own h -∗ Q tt) ⊢ wp (remove_part_loop_m fuel p prev part) Q.
Proof.
  induction u as [|r u IH]; intros p prev [|fuel] Q Hf Hs Hp; try (cbn in Hf; lia); cbn [remove_part_loop_m]; rewrite (sees_relation_null _ _ _ Hs); iIntros "[H K]".
  - iApply wp_ret. by iApply "K".
  - destruct (sees_relation_cons _ _ _ _ Hs) as (n & (m & E & _)%sees_part & Sl). iApply wp_bind. iApply wp_get_part_own; [done|]. iFrame "H". iIntros "H".
    destruct (Z.eqb_spec p part) as [->|Hne]; [congruence|]. iApply (IH n); [cbn in Hf; lia|done|done|]. iFrame.
Qed.
Lemma wp_remove_absent_m part h p u (Q : _ → oprop) : sees h (m_relation p u) → h !! part = None → own h ∗ (own h -∗ Q p) ⊢ wp (osl_relation_remove_part_m p part) Q.
Proof.
  intros Hs Hp. unfold osl_relation_remove_part_m. rewrite (sees_relation_null _ _ _ Hs). iIntros "[H K]". destruct u as [|r u]; cbn [orb].
  - iApply wp_ret. by iApply "K".
  - destruct (isnull part). { iApply wp_ret. by iApply "K". }
    destruct (sees_relation_cons _ _ _ _ Hs) as (n & (m & E & _)%sees_part & Sl). destruct (Z.eqb_spec p part) as [->|Hne]; [congruence|].
    iApply wp_bind. iApply wp_get_part_own; [done|]. iFrame "H". iIntros "H". iApply wp_bind. iStopProof. rewrite bi.sep_comm.
    apply (wp_loop_on (List.length u)); [eapply own_size; [apply m_relation_size|done]|]. intros k Hk. iIntros "[H K]". iApply (wp_remove_absent_loop_m part h u n p); [done..|]. iFrame "H". iIntros "H". iApply wp_ret. by iApply "K".
Qed.
Lemma wp_remove_head_m q r n (Q : _ → oprop) : M (m_part q r n) ∗ (M (m_part q r n) -∗ Q n) ⊢ wp (osl_relation_remove_part_m q q) Q.
Proof.
  iIntros "(P & K)". unfold osl_relation_remove_part_m. iDestruct (part_nonnull with "P") as "[%E P]". rewrite E Z.eqb_refl. cbn [orb].
  iApply wp_bind. iApply wp_part_next. iFrame "P". iIntros (x m) "P". iApply wp_ret. by iApply "K".
Qed.

(** ** Lists *)
Lemma wp_list_add_loop_m l : ∀ p u q l2 fuel (Q : _ → oprop), (List.length l < fuel)%nat →
  M (m_relations p (u :: l)) ∗ M (m_relations q l2) ∗ (M (m_relations p ((u :: l) ++ l2)) -∗ Q tt) ⊢ wp (list_end_loop fuel p q) Q.
Proof.
  induction l as [|u1 l IH]; intros p u q l2 [|fuel] Q Hf; try (cbn in Hf; lia); cbn [list_end_loop]; rewrite M_relations_cons.
  - iIntros "((%e & %n & P & E & U) & V & K)". rewrite M_relations_nil. iDestruct "U" as "%En". subst n. iApply wp_bind. iApply wp_get_list. iFrame "P". iIntros "P".
    rewrite isnull_null. iApply wp_set_list_next. iFrame "P". iIntros "P". iApply "K". cbn [app]. rewrite M_relations_cons. iExists e, q. iFrame.
  - iIntros "((%e & %n & P & E & U) & V & K)". iApply wp_bind. iApply wp_get_list. iFrame "P". iIntros "P". iDestruct (relations_null with "U") as "[%En U]". rewrite En.
    iApply (IH n u1 q l2); [cbn in Hf; lia|]. iFrame "U V". iIntros "U". iApply "K". cbn [app]. rewrite (M_relations_cons p). iExists e, n. iFrame.
Qed.
Lemma wp_list_add_m p l q l2 (Q : _ → oprop) :
  M (m_relations p l) ∗ M (m_relations q l2) ∗ (∀ x, M (m_relations x (l ++ l2)) -∗ Q x) ⊢ wp (osl_relation_list_add_p p q) Q.
Proof.
  iIntros "(U & V & K)". iDestruct (relations_null with "U") as "[%E U]". unfold osl_relation_list_add_p. rewrite E. destruct l as [|u l].
  - iApply wp_ret. iApply "K". cbn [app]. rewrite M_relations_nil. by iDestruct "U" as "_".
  - iApply wp_bind. iCombine "V K" as "K". iCombine "U K" as "K". iStopProof. apply (wp_loop_on (List.length (u :: l))); [apply relations_size|]. intros n Hn.
    iIntros "(U & V & K)". iApply (wp_list_add_loop_m l p u q l2); [cbn in Hn; lia|]. iFrame "U V". iIntros "U". iApply wp_ret. by iApply "K".
Qed.
(** The last node: it can be linked. *)
Lemma wp_list_last_m l : ∀ p u fuel (Q : _ → oprop), (List.length l < fuel)%nat →
  M (m_relations p (u :: l)) ∗ (∀ q e, q ↦ CList e NULL -∗ (∀ n l2, q ↦ CList e n -∗ M (m_relations n l2) -∗ M (m_relations p ((u :: l) ++ l2))) -∗ Q q) ⊢ wp (list_last_loop fuel p) Q.
Proof.
  induction l as [|u1 l IH]; intros p u [|fuel] Q Hf; try (cbn in Hf; lia); cbn [list_last_loop]; rewrite M_relations_cons.
  - iIntros "((%e & %n & P & E & U) & K)". rewrite M_relations_nil. iDestruct "U" as "%En". subst n. iApply wp_bind. iApply wp_get_list. iFrame "P". iIntros "P".
    rewrite isnull_null. iApply wp_ret. iApply ("K" with "P"). iIntros (n l2) "P L". cbn [app]. rewrite M_relations_cons. iExists e, n. iFrame.
  - iIntros "((%e & %n & P & E & U) & K)". iApply wp_bind. iApply wp_get_list. iFrame "P". iIntros "P". iDestruct (relations_null with "U") as "[%En U]". rewrite En.
    iApply (IH n u1); [cbn in Hf; lia|]. iFrame "U". iIntros (q e') "N C". iApply ("K" with "N"). iIntros (x l2) "N L". iDestruct ("C" with "N L") as "L".
    rewrite (M_relations_cons p). iExists e, n. iFrame.
Qed.
Lemma wp_list_concat_m h p l q l2 (Q : _ → oprop) : sees h (m_relations p l) → sees h (m_relations q l2) → Forall (Forall (wf_rel cfg)) l → Forall (Forall (wf_rel cfg)) l2 → config_ok cfg →
  own h ∗ (∀ x, own h -∗ M (m_relations x (l ++ l2)) -∗ Q x) ⊢ wp (osl_relation_list_concat_m p q) Q.
Proof.
  intros Hp Hq Wp Wq Hc. iIntros "[H K]". unfold osl_relation_list_concat_m. rewrite (sees_chain_null _ element_nonnull _ _ _ Hp) (sees_chain_null _ element_nonnull _ _ _ Hq).
  destruct l as [|u l]. { iApply (wp_relations_same Hc h q l2); [done..|]. iFrame "H". iIntros (x) "H L". by iApply ("K" with "H"). }
  destruct l2 as [|u2 l2]. { rewrite app_nil_r. iApply (wp_relations_same Hc h p (u :: l)); [done..|]. iFrame "H". iIntros (x) "H L". by iApply ("K" with "H"). }
  iApply wp_bind. iApply (wp_relations_same Hc h p (u :: l)); [done..|]. iFrame "H". iIntros (x) "H L".
  iApply wp_bind. iCombine "H K" as "K". iCombine "L K" as "K". iStopProof. apply (wp_loop_on (List.length (u :: l))); [apply relations_size|]. intros n Hn.
  iIntros "(L & H & K)". iApply (wp_list_last_m l x u); [cbn in Hn; lia|]. iFrame "L". iIntros (y e) "N C".
  iApply wp_bind. iApply (wp_relations_same Hc h q (u2 :: l2)); [done..|]. iFrame "H". iIntros (z) "H L2". iApply wp_bind. iApply wp_set_list_next. iFrame "N". iIntros "N".
  iApply wp_ret. iApply ("K" with "H"). by iApply ("C" with "N").
Qed.
Lemma wp_list_push_m p l n u (Q : _ → oprop) : M (m_relations p l) ∗ M (m_relations n [u]) ∗ (M (m_relations n (u :: l)) -∗ Q n) ⊢ wp (osl_relation_list_push_p p n) Q.
Proof.
  iIntros "(L & N & K)". unfold osl_relation_list_push_p. iDestruct (relations_null with "N") as "[%E N]". rewrite E. rewrite (M_relations_cons n u []). iDestruct "N" as (e x) "(N & E & X)".
  rewrite M_relations_nil. iDestruct "X" as "%Ex". subst x. iApply wp_bind. iApply wp_set_list_next. iFrame "N". iIntros "N". iApply wp_ret. iApply "K". rewrite M_relations_cons. iExists e, p. iFrame.
Qed.
Lemma wp_list_pop_m p u l (Q : _ → oprop) : M (m_relations p (u :: l)) ∗ (∀ q, M (m_relations p [u]) -∗ M (m_relations q l) -∗ Q (p, q)) ⊢ wp (osl_relation_list_pop_p p) Q.
Proof.
  iIntros "[L K]". unfold osl_relation_list_pop_p. iDestruct (relations_null with "L") as "[%E L]". rewrite E. iEval (rewrite M_relations_cons) in "L". iDestruct "L" as (e n) "(N & E & L)".
  iApply wp_bind. iApply wp_get_list. iFrame "N". iIntros "N". iApply wp_bind. iApply wp_set_list_next. iFrame "N". iIntros "N". iApply wp_ret. iApply ("K" with "[N E] L").
  iApply M_relations_one. iFrame.
Qed.
Lemma wp_list_dup_m p u l (Q : _ → oprop) : Forall (wf_rel cfg) u → config_ok cfg → M (m_relations p (u :: l)) ∗ (M (m_relations p (u :: u :: l)) -∗ Q p) ⊢ wp (osl_relation_list_dup_m p) Q.
Proof.
  intros Hu Hc. iIntros "[L K]". unfold osl_relation_list_dup_m. iApply wp_bind. iApply wp_list_pop_m. iFrame "L". iIntros (q) "T L". iApply wp_bind.
  rewrite (M_own (m_relations p [u])). iDestruct "T" as (hp) "[%Hp T]". iApply (wp_relations_same Hc hp p [u]); [by apply sees_self|by constructor|]. iFrame "T". iIntros (c) "T C".
  iPoseProof (M_back _ _ Hp with "T") as "T". iApply wp_bind. iApply (wp_list_push_m q l c u). iFrame "L C". iIntros "L". iApply (wp_list_push_m c (u :: l) p u). by iFrame.
Qed.
Lemma wp_list_drop_m p l (Q : _ → oprop) : M (m_relations p l) ∗ (∀ q, M (m_relations q (List.tl l)) -∗ Q q) ⊢ wp (osl_relation_list_drop_m p) Q.
Proof.
  iIntros "[L K]". unfold osl_relation_list_drop_m. destruct l as [|u l].
  - rewrite M_relations_nil. iDestruct "L" as "%E". subst p. iApply wp_bind. unfold osl_relation_list_pop_p. rewrite isnull_null. iApply wp_ret. iApply wp_bind. iApply wp_ret. iApply wp_ret. iApply "K". cbn [List.tl]. by rewrite M_relations_nil.
  - iApply wp_bind. iApply wp_list_pop_m. iFrame "L". iIntros (q) "T L". iApply wp_bind. iApply wp_relations_free. iFrame "T". iApply wp_ret. by iApply "K".
Qed.
Lemma wp_list_destroy_loop_m l : ∀ p fuel (Q : _ → oprop), (List.length l < fuel)%nat → M (m_relations p l) ∗ Q NULL ⊢ wp (list_destroy_loop_m fuel p) Q.
Proof.
  induction l as [|u l IH]; intros p [|fuel] Q Hf; try (cbn in Hf; lia); cbn [list_destroy_loop_m]; iIntros "[L K]".
  - rewrite M_relations_nil. iDestruct "L" as "%E". subst p. rewrite isnull_null. by iApply wp_ret.
  - iDestruct (relations_null with "L") as "[%E L]". rewrite E. iApply wp_bind. iApply wp_list_drop_m. iFrame "L". iIntros (q) "L". cbn [List.tl]. iApply IH; [cbn in Hf; lia|]. iFrame.
Qed.
Lemma wp_list_destroy_m p l (Q : _ → oprop) : M (m_relations p l) ∗ Q NULL ⊢ wp (osl_relation_list_destroy_m p) Q.
Proof. apply (wp_loop_on (List.length l)); [apply relations_size|]. intros n Hn. by apply wp_list_destroy_loop_m. Qed.
Lemma wp_set_elt_type_m e u t (Q : _ → oprop) : M (m_relation e u) ∗ (M (m_relation e (first_typed t u)) -∗ Q tt) ⊢ wp (set_elt_type_m e t) Q.
Proof.
  iIntros "[U K]". iDestruct (relation_null with "U") as "[%E U]". unfold set_elt_type_m. rewrite E. destruct u as [|r u]; cbn [first_typed].
  - iApply wp_ret. by iApply "K".
  - iEval (rewrite M_relation_cons) in "U". iDestruct "U" as (n) "(P & U)". iEval (rewrite M_part) in "P". iDestruct "P" as (m) "(P & %Hd & A)". iApply wp_bind. iApply wp_get_part. iFrame "P". iIntros "P". iApply wp_put. iFrame "P". iIntros "P".
    iApply "K". rewrite M_relation_cons. iExists n. iFrame "U". rewrite M_part. iExists m. destruct r. cbn. by iFrame.
Qed.
Lemma wp_list_set_type_loop_m t l : ∀ p fuel (Q : _ → oprop), (List.length l < fuel)%nat →
  M (m_relations p l) ∗ (M (m_relations p (List.map (first_typed t) l)) -∗ Q tt) ⊢ wp (list_set_type_loop_m fuel p t) Q.
Proof.
  induction l as [|u l IH]; intros p [|fuel] Q Hf; try (cbn in Hf; lia); cbn [list_set_type_loop_m List.map]; iIntros "[L K]"; iDestruct (relations_null with "L") as "[%E L]"; rewrite E.
  - iApply wp_ret. by iApply "K".
  - iEval (rewrite M_relations_cons) in "L". iDestruct "L" as (e n) "(N & U & L)". iApply wp_bind. iApply wp_get_list. iFrame "N". iIntros "N". iApply wp_bind. iApply wp_set_elt_type_m. iFrame "U". iIntros "U".
    iApply IH; [cbn in Hf; lia|]. iFrame "L". iIntros "L". iApply "K". rewrite M_relations_cons. iExists e, n. iFrame.
Qed.
Lemma wp_list_set_type_m t p l (Q : _ → oprop) : M (m_relations p l) ∗ (M (m_relations p (List.map (first_typed t) l)) -∗ Q tt) ⊢ wp (osl_relation_list_set_type_m p t) Q.
Proof. apply (wp_loop_on (List.length l)); [apply relations_size|]. intros n Hn. by apply wp_list_set_type_loop_m. Qed.
End R.
