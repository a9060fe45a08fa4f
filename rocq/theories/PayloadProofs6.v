(** * PayloadProofs6: loops, unrolling, dependences, vectors *)
From stdpp Require Import gmap.
From iris.proofmode Require Import tactics.
From Coq Require Import ZifyBool ZifyNat.
From Verif Require Import Base IntModel VectorModel RelationModel RelSpec StringsModel ExtModel HeapModel HeapObjects HeapSpec HeapLogic HeapProofs PayloadModel PayloadSpec PayloadProofs PayloadProofs2 PayloadProofs3 PayloadProofs4 PayloadProofs5 PropHeap.
Local Open Scope string_scope.
Local Open Scope list_scope.
Local Open Scope Z_scope.
Local Open Scope bi_scope.

Section R.
Context {cfg : config} {al : Allocator obj}.

(** ** Loops *)
Definition m_loop_one (p : ptr) (x : ExtModel.loop) (n : ptr) : mem :=
  somewhere (λ '(i, s, pv, u), cell p (BLoop i (Z.of_nat (List.length (lo_stmts x))) s pv (lo_directive x) u n) ⋆
       m_str i (lo_iter x) ⋆ m_ints s (lo_stmts x) ⋆ m_str pv (lo_private x) ⋆ m_str u (lo_user x)).
Lemma m_loops_cons p x l : M (m_loops p (x :: l)) ⊣⊢ ∃ n, M (m_loop_one p x n) ∗ M (m_loops n l).
Proof.
  cbn [m_loops]. unfold m_loop_one. iSplit.
  - iIntros "(%w & S)". destruct w as [[[[i s] pv] u] n]. iDestruct "S" as "(A & R)". iExists n. iFrame "R". iExists (i, s, pv, u). done.
  - iIntros "(%n & (%w & A) & R)". destruct w as [[[i s] pv] u]. iExists (i, s, pv, u, n). iSplitL "A"; done.
Qed.
Lemma m_loops_size l : ∀ p, M (m_loops p l) ⊢ size_ge (List.length l).
Proof.
  induction l as [|x l IH]; intros p; cbn [m_loops]; [apply size_ge_0|]. apply size_somewhere. intros [[[[i s] pv] u] n].
  apply size_more; [apply size_first, size_cell|apply IH].
Qed.
Lemma wp_free_if_s p s (Q : _ → oprop) : M (m_str p s) ∗ Q tt ⊢ wp (free_if p) Q.
Proof. apply wp_free_if_str. Qed.
Lemma wp_free_if_i p l (Q : _ → oprop) : M (m_ints p l) ∗ Q tt ⊢ wp (free_if p) Q.
Proof. apply wp_free_if_ints. Qed.
Lemma wp_loop_free_loop l : ∀ p fuel (Q : _ → oprop), (List.length l < fuel)%nat → M (m_loops p l) ∗ Q tt ⊢ wp (loop_free_loop fuel p) Q.
Proof.
  induction l as [|x l IH]; intros p [|fuel] Q Hf; try (cbn in Hf; lia); cbn [loop_free_loop m_loops].
  - iIntros "[%E K]". subst p. by iApply wp_ret.
  - iIntros "[(%w & S) K]". destruct w as [[[[i s] pv] u] n]. iDestruct "S" as "((P & A & B & C & D) & R)". rewrite M_cell.
    iDestruct (isnull_false with "P") as "[%Ep P]". rewrite Ep. get "P". iApply wp_bind. iApply wp_free_if_s. iFrame "A". iApply wp_bind. iApply wp_free_if_i. iFrame "B".
    iApply wp_bind. iApply wp_free_if_s. iFrame "C". iApply wp_bind. iApply wp_free_if_s. iFrame "D". iApply wp_bind. iApply wp_free. iFrame "P".
    iApply IH; [cbn in Hf; lia|]. iFrame.
Qed.
Lemma wp_loop_free p l (Q : _ → oprop) : M (m_loops p l) ∗ Q tt ⊢ wp (osl_loop_free_p p) Q.
Proof. apply (wp_loop_on (List.length l)); [apply m_loops_size|]. intros n Hn. by apply wp_loop_free_loop. Qed.
Lemma wp_set_loop_next q x n n' (Q : _ → oprop) : M (m_loop_one q x n) ∗ (M (m_loop_one q x n') -∗ Q tt) ⊢ wp (set_loop_next q n') Q.
Proof.
  unfold m_loop_one. iIntros "[(%w & A) K]". destruct w as [[[i s] pv] u]. iDestruct "A" as "(P & A)". rewrite M_cell. get "P".
  iApply wp_put. iFrame "P". iIntros "P". iApply "K". iExists (i, s, pv, u). iSplitL "P"; done.
Qed.
Lemma sees_loops h p x l : sees h (m_loops p (x :: l)) → (∃ i s pv u n, h !! p = Some (CBlock (BLoop i (Z.of_nat (List.length (lo_stmts x))) s pv (lo_directive x) u n)) ∧ p ≠ NULL ∧
  sees h (m_str i (lo_iter x)) ∧ sees h (m_ints s (lo_stmts x)) ∧ sees h (m_str pv (lo_private x)) ∧ sees h (m_str u (lo_user x)) ∧ sees h (m_loops n l))%type.
Proof.
  cbn [m_loops]. intros [[[[[i s] pv] u] n] H]%sees_somewhere. exists i, s, pv, u, n.
  apply sees_beside in H as [H Hl]. apply sees_beside in H as [[Ha Hb]%sees_cell H]. apply sees_beside in H as [Hc H]. apply sees_beside in H as [Hd H]. apply sees_beside in H as [He H]. done.
Qed.
Lemma sees_loops_null h p l : sees h (m_loops p l) → isnull p = match l with [] => true | _ => false end.
Proof.
  destruct l as [|x l].
  - by intros ->%sees_nothing.
  - intros (i & s & pv & u & n & Hp & Hn & _)%sees_loops. by apply null_ne.
Qed.
Lemma wp_strdup_if h p s (Q : _ → oprop) : sees h (m_str p s) →
  own h ∗ (∀ q, own h -∗ M (m_str q s) -∗ Q q) ⊢ wp (if isnull p then ret NULL else OSL_strdup_p p) Q.
Proof.
  intros Hs. destruct s as [s|].
  - pose proof (sees_cell _ _ _ Hs) as [_ Hn]. rewrite (null_ne p Hn). by apply wp_OSL_strdup.
  - apply sees_nothing in Hs as ->. cbn. iIntros "[H K]". iApply wp_ret. iApply ("K" with "H"). done.
Qed.
Lemma wp_loop_clone_one h p x l (Q : _ → oprop) : sees h (m_loops p (x :: l)) →
  own h ∗ (∀ q, own h -∗ M (m_loop_one q x NULL) -∗ Q q) ⊢ wp (osl_loop_clone_one_p p) Q.
Proof.
  intros (i & s & pv & u & n & Hp & Hn & Hi & Hst & Hpv & Hu & Hl)%sees_loops. unfold osl_loop_clone_one_p. rewrite (null_ne p Hn). iIntros "[H K]".
  iApply wp_bind. iApply wp_malloc. iIntros (q) "N". getown Hp. rewrite Nat2Z.id. 
  iApply wp_bind. iApply wp_OSL_strdup; [done|]. iFrame "H". iIntros (i') "H I".
  iApply wp_bind. iApply wp_malloc. iIntros (s') "S". iApply wp_bind. iApply wp_copy_ints; [done|]. iFrame "H S". iIntros "H S".
  iApply wp_bind. iApply wp_strdup_if; [done|]. iFrame "H". iIntros (pv') "H V".
  iApply wp_bind. iApply wp_strdup_if; [done|]. iFrame "H". iIntros (u') "H U". putp "N". iApply wp_ret. iApply ("K" with "H").
  iExists (i', s', pv', u'). iSplitL "N"; [done|]. iSplitL "I"; [done|]. iSplitL "S"; [done|]. iSplitL "V"; done.
Qed.
Lemma loop_one_nonnull q x n : M (m_loop_one q x n) ⊢ <affine> ⌜isnull q = false⌝ ∗ M (m_loop_one q x n).
Proof.
  unfold m_loop_one. iIntros "(%w & A)". destruct w as [[[i s] pv] u]. iDestruct "A" as "(P & A)". rewrite M_cell. iDestruct (isnull_false with "P") as "[%E P]".
  iSplitR; [done|]. iExists (i, s, pv, u). iSplitL "P"; done.
Qed.
Lemma wp_loop_clone_rest h l : ∀ p last x head fuel (Q : _ → oprop), sees h (m_loops p l) → (List.length l < fuel)%nat →
  own h ∗ M (m_loop_one last x NULL) ∗ (own h -∗ M (m_loops last (x :: l)) -∗ Q head) ⊢ wp (loop_clone_loop fuel p last head) Q.
Proof.
  induction l as [|y l IH]; intros p last x head [|fuel] Q Hs Hf; try (cbn in Hf; lia); cbn [loop_clone_loop]; pose proof (sees_loops_null _ _ _ Hs) as E; rewrite E.
  - iIntros "(H & L & K)". iApply wp_ret. iApply ("K" with "H"). rewrite m_loops_cons. iExists NULL. iFrame "L". done.
  - iIntros "(H & L & K)". iApply wp_bind. iApply (wp_loop_clone_one h p y l); [done..|]. iFrame "H". iIntros (q) "H N".
    destruct (sees_loops _ _ _ _ Hs) as (i & s & pv & u & n & Hp & _ & _ & _ & _ & _ & Hn). getown Hp.
    iDestruct (loop_one_nonnull with "L") as "[%El L]". rewrite El.
    iApply wp_bind. iApply wp_set_loop_next. iFrame "L". iIntros "L". 
    iApply (IH n q y); [done..|cbn in Hf; lia|]. iFrame "H N". iIntros "H N". iApply ("K" with "H"). rewrite (m_loops_cons last). iExists q. iFrame.
Qed.
Lemma wp_loop_clone h p l (Q : _ → oprop) : sees h (m_loops p l) →
  own h ∗ (∀ q, own h -∗ M (m_loops q l) -∗ Q q) ⊢ wp (osl_loop_clone_p p) Q.
Proof.
  intros Hs. unfold osl_loop_clone_p. pose proof (sees_loops_null _ _ _ Hs) as E. rewrite E. destruct l as [|x l].
  - iIntros "[H K]". iApply wp_ret. iApply ("K" with "H"). done.
  - apply (wp_loop_on (List.length (x :: l))); [eapply own_size; [apply m_loops_size|done]|]. intros k Hk. iIntros "(H & K)".
    destruct k as [|k]; [lia|]. cbn [loop_clone_loop]. rewrite E. iApply wp_bind. iApply (wp_loop_clone_one h p x l); [done..|]. iFrame "H". iIntros (q) "H N".
    destruct (sees_loops _ _ _ _ Hs) as (i & s & pv & u & n & Hp & _ & _ & _ & _ & _ & Hn). getown Hp. cbn [isnull NULL Z.eqb].
    change (isnull NULL) with true. cbn beta iota.
    iApply (wp_loop_clone_rest h l n q x); [done|cbn in Hk; lia|]. iFrame "H N". iIntros "H N". iApply ("K" with "H N").
Qed.
Lemma wp_loop_add_loop l2 a : ∀ p x p2 fuel (Q : _ → oprop), (List.length a < fuel)%nat →
  M (m_loops p (x :: a)) ∗ M (m_loops p2 l2) ∗ (M (m_loops p ((x :: a) ++ l2)) -∗ Q tt) ⊢ wp (loop_add_loop fuel p2 p) Q.
Proof.
  induction a as [|y a IH]; intros p x p2 [|fuel] Q Hf; try (cbn in Hf; lia); cbn [loop_add_loop]; rewrite m_loops_cons.
  - iIntros "((%n & P & R) & L & K)". cbn [m_loops app]. iDestruct "R" as %->. unfold m_loop_one at 1. iDestruct "P" as (w) "P". destruct w as [[[i s] pv] u].
    iDestruct "P" as "[P A]". rewrite M_cell. get "P". change (isnull NULL) with true. cbn beta iota. iApply (wp_set_loop_next p x NULL).
    iSplitL "P A". { iExists (i, s, pv, u). iSplitL "P"; done. } iIntros "P". iApply "K". change ([x] ++ l2) with (x :: l2). rewrite (m_loops_cons p). iExists p2. iFrame.
  - iIntros "((%n & P & R) & L & K)". unfold m_loop_one at 1. iDestruct "P" as (w) "P". destruct w as [[[i s] pv] u]. iDestruct "P" as "[P A]". rewrite M_cell. get "P".
    iAssert (<affine> ⌜isnull n = false⌝ ∗ M (m_loops n (y :: a))) with "[R]" as "[%En R]".
    { rewrite m_loops_cons. iDestruct "R" as (n') "[R S]". iDestruct (loop_one_nonnull with "R") as "[%E R]". iSplitR; [done|]. iExists n'. iFrame. }
    rewrite En. iApply (IH n y); [cbn in Hf; lia|]. iFrame "R L". iIntros "R". iApply "K". change ((x :: y :: a) ++ l2) with (x :: (y :: a) ++ l2). rewrite (m_loops_cons p). iExists n. iFrame "R".
    iExists (i, s, pv, u). iSplitL "P"; done.
Qed.
Lemma wp_loop_add p p2 a l2 (Q : _ → oprop) :
  M (m_loops p a) ∗ M (m_loops p2 l2) ∗ (∀ q, M (m_loops q (a ++ l2)) -∗ Q q) ⊢ wp (osl_loop_add_p p2 p) Q.
Proof.
  unfold osl_loop_add_p. destruct a as [|x a].
  - cbn [m_loops app]. iIntros "(%E & L & K)". subst p. iApply wp_ret. by iApply "K".
  - iIntros "(P & L & K)". iAssert (<affine> ⌜isnull p = false⌝ ∗ M (m_loops p (x :: a))) with "[P]" as "[%En P]".
    { rewrite m_loops_cons. iDestruct "P" as (n') "[R S]". iDestruct (loop_one_nonnull with "R") as "[%E R]". iSplitR; [done|]. iExists n'. iFrame. }
    rewrite En. iApply wp_bind. iCombine "L K" as "K". iCombine "P K" as "K". iStopProof.
    apply (wp_loop_on (List.length (x :: a))); [apply m_loops_size|]. intros n Hn. iIntros "(P & L & K)".
    iApply (wp_loop_add_loop l2 a p x p2); [cbn in Hn; lia|]. iFrame "P L". iIntros "P". iApply wp_ret. by iApply "K".
Qed.

(** ** Unrolling *)
Lemma m_unrolls_size l : ∀ p, M (m_unrolls p l) ⊢ size_ge (List.length l).
Proof.
  induction l as [|x l IH]; intros p; cbn [m_unrolls]; [apply size_ge_0|]. apply size_somewhere. intros [i n].
  apply size_more; [apply size_first, size_cell|apply IH].
Qed.
Lemma wp_unroll_free_loop l : ∀ p fuel (Q : _ → oprop), (List.length l < fuel)%nat → M (m_unrolls p l) ∗ Q tt ⊢ wp (unroll_free_loop fuel p) Q.
Proof.
  induction l as [|x l IH]; intros p [|fuel] Q Hf; try (cbn in Hf; lia); cbn [unroll_free_loop m_unrolls].
  - iIntros "[%E K]". subst p. by iApply wp_ret.
  - iIntros "[(%w & S) K]". destruct w as [i n]. iDestruct "S" as "((P & A) & R)". rewrite M_cell.
    iDestruct (isnull_false with "P") as "[%Ep P]". rewrite Ep. get "P". iApply wp_bind. iApply IH; [cbn in Hf; lia|]. iFrame "R". get "P".
    iApply wp_bind. iApply wp_free_str. iFrame "A". iApply wp_free. iFrame.
Qed.
Lemma wp_unroll_free p l (Q : _ → oprop) : M (m_unrolls p l) ∗ Q tt ⊢ wp (osl_pluto_unroll_free_p p) Q.
Proof. apply (wp_loop_on (List.length l)); [apply m_unrolls_size|]. intros n Hn. by apply wp_unroll_free_loop. Qed.
Lemma sees_unrolls h p x l : sees h (m_unrolls p (x :: l)) → (∃ i n, h !! p = Some (CBlock (BUnroll i (un_jam x) (un_factor x) n)) ∧ p ≠ NULL ∧
  sees h (m_str i (un_iter x)) ∧ sees h (m_unrolls n l))%type.
Proof.
  cbn [m_unrolls]. intros [[i n] H]%sees_somewhere. exists i, n. apply sees_beside in H as [H Hl]. apply sees_beside in H as [[Ha Hb]%sees_cell H]. done.
Qed.
Lemma sees_unrolls_null h p l : sees h (m_unrolls p l) → isnull p = match l with [] => true | _ => false end.
Proof.
  destruct l as [|x l].
  - by intros ->%sees_nothing.
  - intros (i & n & Hp & Hn & _)%sees_unrolls. by apply null_ne.
Qed.
Lemma wp_unroll_fill h p i s i0 s0 j j0 f f0 n (Q : _ → oprop) : sees h (m_str i s) →
  own h ∗ p ↦ CBlock (BUnroll i0 j0 f0 n) ∗ M (m_str i0 s0) ∗
    (∀ i', own h -∗ p ↦ CBlock (BUnroll i' j f n) -∗ M (m_str i' (match s with None => s0 | _ => s end)) -∗ Q tt) ⊢ wp (osl_pluto_unroll_fill_p p i j f) Q.
Proof.
  intros Hs. unfold osl_pluto_unroll_fill_p. iIntros "(H & P & I & K)". iDestruct (isnull_false with "P") as "[%Ep P]". rewrite Ep. get "P". destruct s as [s|].
  - pose proof (sees_cell _ _ _ Hs) as [Hi Hn]. rewrite (null_ne i Hn). iApply wp_bind. iApply wp_bind. iApply wp_get_str_own; [done|]. iFrame "H". iIntros "H".
    iApply wp_bind. iApply wp_free_if_str. iFrame "I". iApply wp_malloc. iIntros (i') "I". iApply wp_put. iFrame "P". iIntros "P". iApply ("K" with "H P"). done.
  - apply sees_nothing in Hs as ->. change (isnull NULL) with true. cbn beta iota. iApply wp_bind. iApply wp_ret. iApply wp_put. iFrame "P". iIntros "P". iApply ("K" with "H P I").
Qed.
Lemma wp_unroll_clone_loop h l : ∀ s p x fuel (Q : _ → oprop), sees h (m_unrolls s (x :: l)) → (List.length (x :: l) < fuel)%nat →
  own h ∗ p ↦ CBlock (BUnroll NULL false 0 NULL) ∗ (own h -∗ M (m_unrolls p (x :: l)) -∗ Q tt) ⊢ wp (unroll_clone_loop fuel s p) Q.
Proof.
  induction l as [|y l IH]; intros s p x [|fuel] Q Hs Hf; try (cbn in Hf; lia); cbn [unroll_clone_loop]; rewrite (sees_unrolls_null _ _ _ Hs);
    destruct (sees_unrolls _ _ _ _ Hs) as (i & n & Hp & _ & Hi & Hn); iIntros "(H & P & K)"; getown Hp; iApply wp_bind;
    (iApply (wp_unroll_fill h p i _ NULL None); [done|]); iFrame "H P"; (iSplitR; [done|]); iIntros (i') "H P I"; rewrite (sees_unrolls_null _ _ _ Hn).
  - iApply wp_bind. iApply wp_ret. get "P". apply sees_nothing in Hn as ->. destruct fuel as [|fuel]; [cbn in Hf; lia|]. cbn [unroll_clone_loop].
    change (isnull NULL) with true. cbn beta iota. iApply wp_ret. iApply ("K" with "H"). cbn [m_unrolls]. iExists (i', NULL). iSplitL; [|done]. iSplitL "P"; [done|]. by destruct (un_iter x).
  - iApply wp_bind. iApply wp_bind. iApply wp_malloc. iIntros (q) "N". get "P". iApply wp_put. iFrame "P". iIntros "P". get "P".
    iApply (IH n q y); [done|cbn in Hf |- *; lia|]. iFrame "H N". iIntros "H N". iApply ("K" with "H"). change (m_unrolls p (x :: y :: l)) with (somewhere (λ '(i, n), (cell p (BUnroll i (un_jam x) (un_factor x) n) ⋆ m_str i (un_iter x)) ⋆ m_unrolls n (y :: l))).
    iExists (i', q). iSplitR "N"; [|done]. iSplitL "P"; [done|]. by destruct (un_iter x).
Qed.
Lemma wp_unroll_clone h p l (Q : _ → oprop) : sees h (m_unrolls p l) →
  own h ∗ (∀ q, own h -∗ M (m_unrolls q l) -∗ Q q) ⊢ wp (osl_pluto_unroll_clone_p p) Q.
Proof.
  intros Hs. unfold osl_pluto_unroll_clone_p. pose proof (sees_unrolls_null _ _ _ Hs) as E. rewrite E. destruct l as [|x l].
  - iIntros "[H K]". iApply wp_bind. iApply wp_ret. iApply wp_bind. iCombine "H K" as "K". iStopProof.
    apply (wp_loop_on 0); [apply size_ge_0|]. intros k Hk. destruct k as [|k]; [lia|]. cbn [unroll_clone_loop]. rewrite E. iIntros "[H K]". iApply wp_ret. iApply wp_ret.
    iApply ("K" with "H"). done.
  - iIntros "[H K]". iApply wp_bind. iApply wp_malloc. iIntros (q) "N". iApply wp_bind. iCombine "N K" as "K". iCombine "H K" as "K". iStopProof.
    apply (wp_loop_on (List.length (x :: l))); [eapply own_size; [apply m_unrolls_size|done]|]. intros k Hk. iIntros "(H & N & K)".
    iApply (wp_unroll_clone_loop h l p q x); [done..|]. iFrame "H N". iIntros "H N". iApply wp_ret. iApply ("K" with "H N").
Qed.

(** ** Dependences *)
Lemma M_union d u : M (λ h, stores_union h d u) ⊣⊢ runion d u.
Proof. constructor. intros h. rewrite M_holds. symmetry. apply runion_spec. Qed.
Lemma m_dependences_size l : ∀ p, M (m_dependences p l) ⊢ size_ge (List.length l).
Proof.
  induction l as [|x l IH]; intros p; cbn [m_dependences]; [apply size_ge_0|]. apply size_somewhere. intros [d n].
  apply size_more; [apply size_cell|]. rewrite M_beside IH (bi.sep_comm _ (size_ge _)). apply size_ge_frame.
Qed.
Lemma wp_dependence_free_loop l : ∀ p fuel (Q : _ → oprop), (List.length l < fuel)%nat → M (m_dependences p l) ∗ Q tt ⊢ wp (dependence_free_loop fuel p) Q.
Proof.
  induction l as [|x l IH]; intros p [|fuel] Q Hf; try (cbn in Hf; lia); cbn [dependence_free_loop m_dependences].
  - iIntros "[%E K]". subst p. by iApply wp_ret.
  - iIntros "[(%w & S) K]". destruct w as [d n]. iDestruct "S" as "(P & A & R)". rewrite M_cell M_union.
    iDestruct (isnull_false with "P") as "[%Ep P]". rewrite Ep. get "P". iApply wp_bind. iApply wp_relation_free. iFrame "A". iApply wp_bind. iApply wp_free. iFrame "P".
    iApply IH; [cbn in Hf; lia|]. iFrame.
Qed.
Lemma wp_dependence_free p l (Q : _ → oprop) : M (m_dependences p l) ∗ Q tt ⊢ wp (osl_dependence_free_p p) Q.
Proof. apply (wp_loop_on (List.length l)); [apply m_dependences_size|]. intros n Hn. by apply wp_dependence_free_loop. Qed.
Lemma sees_dependences h p x l : sees h (m_dependences p (x :: l)) → (∃ d n, h !! p = Some (CBlock (BDependence (dependence_ints x) d n)) ∧ p ≠ NULL ∧
  sees h (λ h, stores_union h d (de_domain x)) ∧ sees h (m_dependences n l))%type.
Proof.
  cbn [m_dependences]. intros [[d n] H]%sees_somewhere. exists d, n. apply sees_beside in H as [[Ha Hb]%sees_cell H]. apply sees_beside in H as [Hc Hd]. done.
Qed.
Lemma sees_dependences_null h p l : sees h (m_dependences p l) → isnull p = match l with [] => true | _ => false end.
Proof.
  destruct l as [|x l].
  - by intros ->%sees_nothing.
  - intros (i & n & Hp & Hn & _)%sees_dependences. by apply null_ne.
Qed.
Lemma wp_relation_clone_own h d u (Q : _ → oprop) : sees h (λ h, stores_union h d u) → osl_relation_clone u = Ok u →
  own h ∗ (∀ q, own h -∗ M (λ h, stores_union h q u) -∗ Q q) ⊢ wp (osl_relation_clone_p d) Q.
Proof.
  intros Hs Hu. destruct (sees_take _ _ Hs) as (hs & Hd & HT). iIntros "[H K]". iDestruct (HT with "H") as "[H R]".
  iApply (wp_relation_clone hs d u u); [done|]. rewrite -{1}(own_ex hs (runion d u)); [|by apply runion_spec]. iFrame "H". iIntros (q) "H N".
  rewrite -(own_ex hs (runion d u)); [|by apply runion_spec]. iApply ("K" with "[H R]"); [by iApply "R"|]. by rewrite M_union.
Qed.
Definition m_dependence_one (p : ptr) (x : dependence) (n : ptr) : mem :=
  somewhere (λ d, cell p (BDependence (dependence_ints x) d n) ⋆ (λ h, stores_union h d (de_domain x))).
Lemma m_dependences_cons p x l : M (m_dependences p (x :: l)) ⊣⊢ ∃ n, M (m_dependence_one p x n) ∗ M (m_dependences n l).
Proof.
  cbn [m_dependences]. unfold m_dependence_one. iSplit.
  - iIntros "(%w & S)". destruct w as [d n]. iDestruct "S" as "(P & A & R)". iExists n. iFrame "R". iExists d. iSplitL "P"; done.
  - iIntros "(%n & (%d & P & A) & R)". iExists (d, n). iSplitL "P"; [done|]. iSplitL "A"; done.
Qed.
Lemma wp_set_dependence_next q x n n' (Q : _ → oprop) : M (m_dependence_one q x n) ∗ (M (m_dependence_one q x n') -∗ Q tt) ⊢ wp (set_dependence_next q n') Q.
Proof.
  unfold m_dependence_one. iIntros "[(%d & P & A) K]". rewrite M_cell. get "P". iApply wp_put. iFrame "P". iIntros "P". iApply "K". iExists d. iSplitL "P"; done.
Qed.
Lemma wp_dependence_clone_rest h l : ∀ p last x clone fuel (Q : _ → oprop), sees h (m_dependences p l) → Forall (λ d, osl_relation_clone (de_domain d) = Ok (de_domain d)) l →
  (List.length l < fuel)%nat → own h ∗ M (m_dependence_one last x NULL) ∗ (own h -∗ M (m_dependences last (x :: l)) -∗ Q clone) ⊢ wp (dependence_clone_loop fuel p false clone last) Q.
Proof.
  induction l as [|y l IH]; intros p last x clone [|fuel] Q Hs Hl Hf; try (cbn in Hf; lia); cbn [dependence_clone_loop]; pose proof (sees_dependences_null _ _ _ Hs) as E; rewrite E.
  - iIntros "(H & L & K)". iApply wp_ret. iApply ("K" with "H"). rewrite m_dependences_cons. iExists NULL. iFrame "L". done.
  - inversion Hl; subst. destruct (sees_dependences _ _ _ _ Hs) as (d & n & Hp & _ & Hd & Hn). iIntros "(H & L & K)". iApply wp_bind. iApply wp_malloc. iIntros (q) "N".
    getown Hp. iApply wp_bind. iApply wp_relation_clone_own; [done..|]. iFrame "H". iIntros (d') "H D". putp "N".
    iApply wp_bind. iApply wp_set_dependence_next. iFrame "L". iIntros "L". getown Hp.
    iApply (IH n q y); [done..|cbn in Hf; lia|]. iFrame "H". iSplitL "N D". { iExists d'. iSplitL "N"; done. }
    iIntros "H N". iApply ("K" with "H"). rewrite (m_dependences_cons last). iExists q. iFrame.
Qed.
Lemma wp_dependence_clone h p l (Q : _ → oprop) : sees h (m_dependences p l) → Forall (λ d, osl_relation_clone (de_domain d) = Ok (de_domain d)) l →
  own h ∗ (∀ q, own h -∗ M (m_dependences q l) -∗ Q q) ⊢ wp (osl_dependence_clone_p p) Q.
Proof.
  intros Hs Hl. apply (wp_loop_on (List.length l)); [eapply own_size; [apply m_dependences_size|done]|]. intros [|k] Hk; [lia|]. cbn [dependence_clone_loop].
  rewrite (sees_dependences_null _ _ _ Hs). destruct l as [|x l]; iIntros "[H K]".
  - iApply wp_ret. iApply ("K" with "H"). done.
  - inversion Hl; subst. destruct (sees_dependences _ _ _ _ Hs) as (d & n & Hp & _ & Hd & Hn). iApply wp_bind. iApply wp_malloc. iIntros (q) "N".
    getown Hp. iApply wp_bind. iApply wp_relation_clone_own; [done..|]. iFrame "H". iIntros (d') "H D". putp "N". iApply wp_bind. iApply wp_ret. getown Hp.
    iApply (wp_dependence_clone_rest h l n q x); [done..|cbn in Hk; lia|]. iFrame "H". iSplitL "N D". { iExists d'. iSplitL "N"; done. }
    iIntros "H N". iApply ("K" with "H N").
Qed.
End R.
