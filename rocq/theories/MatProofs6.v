(** * MatProofs6: unions of relations: release, copy, comparison; functions built on the previous ones *)
From stdpp Require Import gmap.
From iris.proofmode Require Import tactics.
From Coq Require Import ZifyBool ZifyNat.
From Verif Require Import Base IntModel VectorModel RelationModel Spec RelSpec LoopLemmas IntProofs RelationProofs HeapModel HeapObjects HeapSpec HeapLogic HeapProofs PayloadModel PayloadSpec PayloadProofs PayloadProofs2 PayloadProofs5 MatModel MatSpec MatProofs MatProofs2 MatProofs3 MatProofs4 MatProofs5.
Local Open Scope string_scope.
Local Open Scope list_scope.
Local Open Scope Z_scope.
Local Open Scope bi_scope.
Notation loop := HeapModel.loop.

Lemma own_disjoint (h1 h2 : heap obj) : own h1 ∗ own h2 ⊢ <affine> ⌜h1 ##ₘ h2⌝ ∗ own h1 ∗ own h2.
Proof.
  constructor. intros h (x1 & x2 & -> & Hd & E1 & E2). cbn in E1, E2. subst. exists ∅, (h1 ∪ h2). rewrite left_id_L. split_and!; [done|apply map_disjoint_empty_l|by split|].
  exists h1, h2. done.
Qed.
Section MAT.
Context {cfg : config} {al : Allocator obj}.

Lemma sim_loop_on {A B} (v : res B) (k : nat) P R (f : nat → oprog A) Q : (P ⊢ size_ge k) → (∀ n, (k < n)%nat → P ∗ R ⊢ sim v (f n) Q) → P ∗ R ⊢ sim v (loop f) Q.
Proof.
  destruct v as [b| | |]; cbn [sim].
  - apply wp_loop_on.
  - intros [HP] H. constructor. intros h (h1 & h2 & -> & Hd & H1 & H2) hf Hf. unfold loop.
    assert (k < S (size ((h1 ∪ h2) ∪ hf)))%nat as Hk.
    { pose proof (HP _ H1) as Hs. change (k ≤ size h1)%nat in Hs. rewrite !map_size_disj_union; [lia|done|done]. }
    destruct (H _ Hk) as [X]. apply X; [|done]. exists h1, h2. done.
  - intros _ _. by iIntros "_".
  - intros _ _. by iIntros "_".
Qed.

(** ** Unions *)
Lemma M_relation_cons a r l : M (m_relation a (r :: l)) ⊣⊢ ∃ n, M (m_part a r n) ∗ M (m_relation n l).
Proof. cbn [m_relation]. rewrite M_somewhere. apply bi.exist_proper. intros n. apply M_beside. Qed.
Lemma M_relation_nil a : M (m_relation a []) ⊣⊢ <affine> ⌜a = NULL⌝.
Proof. apply M_nothing. Qed.
Lemma M_relation_one a r : M (m_part a r NULL) ⊢ M (m_relation a [r]).
Proof. rewrite M_relation_cons. iIntros "P". iExists NULL. rewrite M_relation_nil. by iFrame. Qed.
Lemma sees_relation_cons h a r l : sees h (m_relation a (r :: l)) → (∃ n, sees h (m_part a r n) ∧ sees h (m_relation n l))%type.
Proof. intros (n & [H1 H2]%sees_beside)%sees_somewhere. by exists n. Qed.
Lemma sees_relation_null h a l : sees h (m_relation a l) → isnull a = match l with [] => true | _ => false end.
Proof.
  destruct l as [|r l].
  - by intros ->%sees_nothing.
  - intros (n & (m & _ & E & _)%sees_part & _)%sees_relation_cons. done.
Qed.
Lemma m_relation_size l : ∀ p, M (m_relation p l) ⊢ size_ge (List.length l).
Proof.
  induction l as [|x l IH]; intros p; cbn [m_relation]; [apply size_ge_0|]. apply size_somewhere. intros n.
  apply size_more; [|apply IH]. unfold m_part. apply size_somewhere. intros m. apply size_first, size_cell.
Qed.
Lemma wp_part_free_loop l : ∀ p fuel (Q : _ → oprop), (List.length l < fuel)%nat → M (m_relation p l) ∗ Q tt ⊢ wp (part_free_loop fuel p) Q.
Proof.
  induction l as [|x l IH]; intros p [|fuel] Q Hf; try (cbn in Hf; lia); cbn [part_free_loop].
  - rewrite M_relation_nil. iIntros "[%E K]". subst p. by iApply wp_ret.
  - rewrite M_relation_cons. iIntros "[(%n & P & R) K]". rewrite M_part. iDestruct "P" as (m) "(A & %Hr & D)". iDestruct (isnull_false with "A") as "[%Ep A]". rewrite Ep.
    iApply wp_bind. iApply wp_get_part. iFrame "A". iIntros "A". iApply wp_bind. iApply (wp_free_inside p (bare x) m n _ (rm x)); [cbn; lia|cbn; lia|]. iFrame "A D". iIntros "A".
    iApply wp_bind. iApply wp_free. iFrame "A". iApply IH; [cbn in Hf; lia|]. iFrame.
Qed.
Lemma wp_relation_free p l (Q : _ → oprop) : M (m_relation p l) ∗ Q tt ⊢ wp (osl_relation_free_m p) Q.
Proof. apply (wp_loop_on (List.length l)); [apply m_relation_size|]. intros n Hn. by apply wp_part_free_loop. Qed.
Lemma wp_parts_loop h l : ∀ p fuel (Q : _ → oprop), sees h (m_relation p l) → (List.length l < fuel)%nat →
  own h ∗ (own h -∗ Q (osl_relation_nb_components l)) ⊢ wp (parts_loop fuel p) Q.
Proof.
  induction l as [|x l IH]; intros p [|fuel] Q Hs Hf; try (cbn in Hf; lia); cbn [parts_loop]; rewrite (sees_relation_null _ _ _ Hs).
  - iIntros "[H K]". iApply wp_ret. by iApply "K".
  - destruct (sees_relation_cons _ _ _ _ Hs) as (n & (m & E & _ & _ & _ & _)%sees_part & Sl). iIntros "[H K]". iApply wp_bind. iApply wp_get_part_own; [done|]. iFrame "H". iIntros "H".
    iApply wp_bind. iApply IH; [done|cbn in Hf; lia|]. iFrame "H". iIntros "H". iApply wp_ret. by iApply "K".
Qed.
Lemma wp_nb_components h p l (Q : _ → oprop) : sees h (m_relation p l) → own h ∗ (own h -∗ Q (osl_relation_nb_components l)) ⊢ wp (osl_relation_nb_components_m p) Q.
Proof.
  intros Hs. apply (wp_loop_on (List.length l)); [eapply own_size; [apply m_relation_size|done]|]. intros n Hn. by apply wp_parts_loop.
Qed.

(** *** Copy *)
Lemma sim_clone_part h a r n k (Q : relation → ptr → oprop) : sees h (m_part a r n) →
  own h ∗ (∀ r' b, own h -∗ M (m_part b r' NULL) -∗ Q r' b) ⊢ sim (clone_part r k) (clone_part_m a k) Q.
Proof.
  intros (m & E & Ea & HR & HC & S)%sees_part. iIntros "[H K]". unfold clone_part_m. iApply sim_heap. iApply wp_get_part_own; [done|]. iFrame "H". iIntros "H". cbn [bare with_m rprec nrows ncols rtype nout nin nloc npar].
  unfold clone_part. iApply sim_bind. iApply sim_new. iIntros (b mt mat) "%Ht T D". cbn [rm nrows ncols rprec with_m]. iApply sim_heap. iApply wp_get_part. iFrame "T". iIntros "T". cbn [head rprec nrows ncols].
  iApply sim_heap. iApply wp_put. iFrame "T". iIntros "T".
  iApply sim_bind. iApply (sim_cfor (λ m, own h ∗ M (m_matrix (rprec r) mt k (ncols r) m))).
  { intros j s _. iIntros "[H D]". iApply sim_copies; [done|]. iFrame. iIntros (d) "H D". iFrame. }
  iFrame "H D". iIntros (m') "[H D]". iApply sim_ret. iApply ("K" with "H"). rewrite M_part. iExists mt. iFrame "T D". done.
Qed.
Lemma sim_nclone_rest h k : ∀ p l prev x clone (Q : list relation → ptr → oprop), sees h (m_relation p l) →
  own h ∗ M (m_part prev x NULL) ∗ (∀ l', own h -∗ M (m_relation prev (x :: l')) -∗ Q l' clone) ⊢ sim (nclone_loop k l) (nclone_loop_m k p false clone prev) Q.
Proof.
  induction k as [|k IH]; intros p l prev x clone Q Hs; cbn [nclone_loop nclone_loop_m].
  - iIntros "(H & P & K)". iApply sim_ret. iApply ("K" with "H"). by iApply M_relation_one.
  - destruct l as [|r l]; [by iIntros "_"|]. destruct (sees_relation_cons _ _ _ _ Hs) as (n & Sp & Sl). destruct (sees_part _ _ _ _ Sp) as (m & E & _). iIntros "(H & P & K)".
    iApply sim_heap. iApply wp_get_part_own; [done|]. iFrame "H". iIntros "H". change (nrows (bare r)) with (nrows r). iApply sim_bind. iApply sim_clone_part; [done|]. iFrame "H". iIntros (r' b) "H B".
    iApply sim_heap. rewrite (M_part prev). iDestruct "P" as (mp) "(A & %Hx & D)". iApply wp_bind. iApply wp_get_part. iFrame "A". iIntros "A". iApply wp_put. iFrame "A". iIntros "A".
    iApply sim_map. iApply (IH n l b r'); [done|]. iFrame "H B". iIntros (l') "H B". iApply ("K" with "H"). rewrite (M_relation_cons prev). iExists b. iFrame "B". rewrite M_part. iExists mp. by iFrame.
Qed.
Lemma sim_nclone h p l n (Q : list relation → ptr → oprop) : sees h (m_relation p l) →
  own h ∗ (∀ l' q, own h -∗ M (m_relation q l') -∗ Q l' q) ⊢ sim (osl_relation_nclone l n) (osl_relation_nclone_m p n) Q.
Proof.
  intros Hs. iIntros "[H K]". unfold osl_relation_nclone_m, osl_relation_nclone. iApply sim_heap. iApply wp_nb_components; [done|]. iFrame "H". iIntros "H". cbn zeta.
  destruct (_ <? _); [iStopProof; apply sim_err|]. destruct (Z.to_nat _) as [|k]; cbn [nclone_loop nclone_loop_m].
  - iApply sim_ret. iApply ("K" with "H"). by rewrite M_relation_nil.
  - destruct l as [|r l]; [by iStopProof; iIntros "_"|]. destruct (sees_relation_cons _ _ _ _ Hs) as (nx & Sp & Sl). destruct (sees_part _ _ _ _ Sp) as (m & E & _).
    iApply sim_heap. iApply wp_get_part_own; [done|]. iFrame "H". iIntros "H". change (nrows (bare r)) with (nrows r). iApply sim_bind. iApply sim_clone_part; [done|]. iFrame "H". iIntros (r' b) "H B".
    iApply sim_map. iApply (sim_nclone_rest h k nx l b r'); [done|]. iFrame "H B". iIntros (l') "H B". iApply ("K" with "H B").
Qed.
Lemma sim_clone h p l (Q : list relation → ptr → oprop) : sees h (m_relation p l) →
  own h ∗ (∀ l' q, own h -∗ M (m_relation q l') -∗ Q l' q) ⊢ sim (osl_relation_clone l) (osl_relation_clone_m p) Q.
Proof.
  intros Hs. unfold osl_relation_clone_m, osl_relation_clone. rewrite (sees_relation_null _ _ _ Hs). destruct l as [|r l].
  - iIntros "[H K]". iApply sim_ret. iApply ("K" with "H"). by rewrite M_relation_nil.
  - by apply sim_nclone.
Qed.

(** ** Vectors as rows *)
Lemma sim_from_vector h pv v (Q : relation → ptr → oprop) : sees h (m_vector pv v) →
  own h ∗ (∀ r b, own h -∗ M (m_part b r NULL) -∗ Q r b) ⊢ sim (osl_relation_from_vector v) (osl_relation_from_vector_m pv) Q.
Proof.
  intros Hs. destruct (sees_vector _ _ _ Hs) as (b & Ev & Epv & Hl & S). iIntros "[H K]". unfold osl_relation_from_vector_m, osl_relation_from_vector. rewrite Epv.
  iApply sim_heap. iApply wp_get_vec_own; [done|]. iFrame "H". iIntros "H". iApply sim_bind. iApply sim_new. iIntros (t mt mat) "%Ht T D".
  set (r0 := mkrel UNDEFINED (vprec v) 1 (vsize v) UNDEFINED UNDEFINED UNDEFINED UNDEFINED mat).
  assert (osl_relation_replace_vector r0 v 0 = bind (osl_relation_replace_vector r0 v 0) Ok) as -> by by destruct (osl_relation_replace_vector r0 v 0).
  iApply sim_bind. iApply (sim_replace_vector h t r0 mt NULL pv v 0 _ Hs). iFrame "H T D". iIntros (mat') "H T D". iApply sim_ret. iApply ("K" with "H"). rewrite M_part. iExists mt. iFrame "T D". iPureIntro. cbn. lia.
Qed.
Lemma sim_insert_vector h a r n pv v row (Q : relation → unit → oprop) : sees h (m_vector pv v) →
  own h ∗ M (m_part a r n) ∗ (∀ r', own h -∗ M (m_part a r' n) -∗ Q r' tt) ⊢ sim (osl_relation_insert_vector r v row) (osl_relation_insert_vector_m a pv row) Q.
Proof.
  intros Hs. iIntros "(H & P & K)". unfold osl_relation_insert_vector_m, osl_relation_insert_vector. iApply sim_bind. iApply sim_from_vector; [done|]. iFrame "H". iIntros (t b) "H T".
  rewrite (M_own (m_part a r n)) (M_own (m_part b t NULL)). iDestruct "P" as (h1) "[%H1 P]". iDestruct "T" as (h2) "[%H2 T]". iDestruct (own_disjoint h1 h2 with "[$P $T]") as "(%Hd & P & T)".
  assert (osl_relation_insert_constraints r t row = bind (osl_relation_insert_constraints r t row) Ok) as -> by by destruct (osl_relation_insert_constraints r t row).
  iApply sim_bind. iApply (sim_insert_constraints h1 h2 a r n b t NULL); [done|done|apply (sees_mono h2); [by apply map_union_subseteq_r|by apply sees_self]|].
  rewrite own_union; [|done]. iFrame "P T". iIntros (r') "T P". iApply sim_ok. iApply (wp_relation_free b [t]). iSplitL "T".
  { iApply M_relation_one. rewrite M_own. iExists h2. by iFrame. }
  iApply ("K" with "H P").
Qed.
Lemma sim_insert_blank_row a r n row (Q : relation → unit → oprop) : M (m_part a r n) ∗ (∀ r', M (m_part a r' n) -∗ Q r' tt) ⊢
  sim (osl_relation_insert_blank_row r row) (osl_relation_insert_blank_row_m a row) Q.
Proof.
  iIntros "[P K]". unfold osl_relation_insert_blank_row_m, osl_relation_insert_blank_row. rewrite M_part. iDestruct "P" as (m) "(A & %Hr & D)". iDestruct (isnull_false with "A") as "[%Ea A]". rewrite Ea.
  iApply sim_heap. iApply wp_get_part. iFrame "A". iIntros "A". cbn [bare with_m rprec ncols]. iApply sim_bind. iApply sim_vpmalloc. iIntros (pv b l) "V".
  set (v := mkvec (rprec r) (ncols r) l).
  assert (osl_relation_insert_vector r v row = bind (osl_relation_insert_vector r v row) Ok) as -> by by destruct (osl_relation_insert_vector r v row).
  iAssert (M (m_vector pv v)) with "[V]" as "V"; [rewrite M_vector; by iExists b|]. rewrite {1}(M_own (m_vector pv v)). iDestruct "V" as (h) "[%Hh V]".
  iApply sim_bind. iApply (sim_insert_vector h a r n pv v); [by apply sees_self|]. iFrame "V". iSplitL "A D"; [rewrite M_part; iExists m; by iFrame|].
  iIntros (r') "V P". iApply sim_ok. iApply (wp_vector_free pv v). iSplitL "V"; [rewrite M_own; iExists h; by iFrame|]. iApply ("K" with "P").
Qed.
(** *** concat_constraints: the two relations may be the same *)
Lemma sim_concat_constraints h a1 l1 a2 l2 (Q : list relation → ptr → oprop) : sees h (m_relation a1 l1) → sees h (m_relation a2 l2) →
  own h ∗ (∀ l q, own h -∗ M (m_relation q l) -∗ Q l q) ⊢ sim (osl_relation_concat_constraints l1 l2) (osl_relation_concat_constraints_m a1 a2) Q.
Proof.
  intros S1 S2. unfold osl_relation_concat_constraints_m, osl_relation_concat_constraints. rewrite (sees_relation_null _ _ _ S1) (sees_relation_null _ _ _ S2).
  destruct l1 as [|r1 l1]; [by apply sim_clone|]. destruct l2 as [|r2 l2]; [by apply sim_clone|].
  destruct (sees_relation_cons _ _ _ _ S1) as (n1 & P1 & _). destruct (sees_relation_cons _ _ _ _ S2) as (n2 & P2 & _).
  destruct (sees_part _ _ _ _ P1) as (m1 & E1 & _ & HR1 & HC1 & _). destruct (sees_part _ _ _ _ P2) as (m2 & E2 & _ & HR2 & HC2 & _). iIntros "[H K]".
  iApply sim_heap. iApply wp_get_part_own; [done|]. iFrame "H". iIntros "H". iApply sim_heap. iApply wp_get_part_own; [done|]. iFrame "H". iIntros "H".
  cbn [bare with_m rprec nrows ncols]. destruct (negb _); [iStopProof; apply sim_err|].
  iApply sim_bind. iApply sim_new. iIntros (t mt mat) "%Ht T D". iApply sim_bind.
  iApply (sim_replace_constraints h t _ mt NULL a1 r1 n1 0); [done|]. cbn [with_m rm nrows ncols rprec]. iFrame "H T D". iIntros (m') "H T D". iApply sim_bind.
  iApply (sim_replace_constraints h t _ mt NULL a2 r2 n2 (nrows r1)); [done|]. cbn [with_m rm nrows ncols rprec]. iFrame "H T D". iIntros (m'') "H T D". iApply sim_ret. iApply ("K" with "H").
  iApply M_relation_one. rewrite M_part. iExists mt. iFrame "T D". iPureIntro. cbn. lia.
Qed.
Definition m_vector_opt (pv : ptr) (o : option vector) : mem := match o with Some v => m_vector pv v | None => nothing (pv = NULL) end.
Lemma sim_concat_vector h a l pv o (Q : list relation → ptr → oprop) : sees h (m_relation a l) → sees h (m_vector_opt pv o) →
  own h ∗ (∀ l' q, own h -∗ M (m_relation q l') -∗ Q l' q) ⊢ sim (osl_relation_concat_vector l o) (osl_relation_concat_vector_m a pv) Q.
Proof.
  intros Sl Sv. iIntros "[H K]". unfold osl_relation_concat_vector_m, osl_relation_concat_vector. destruct o as [v|]; cbn [m_vector_opt] in Sv.
  - iApply sim_bind. iApply sim_from_vector; [done|]. iFrame "H". iIntros (t b) "H T".
    iDestruct (M_relation_one with "T") as "T". rewrite {1}(M_own (m_relation b [t])). iDestruct "T" as (h2) "[%H2 T]". iDestruct (own_disjoint h h2 with "[$H $T]") as "(%Hd & H & T)".
    assert (osl_relation_concat_constraints l [t] = bind (osl_relation_concat_constraints l [t]) Ok) as -> by by destruct (osl_relation_concat_constraints l [t]).
    iApply sim_bind. iApply (sim_concat_constraints (h ∪ h2) a l b [t]); [apply (sees_mono h); [by apply map_union_subseteq_l|done]|apply (sees_mono h2); [by apply map_union_subseteq_r|by apply sees_self]|].
    iSplitL "H T"; [rewrite own_union; [iFrame|done]|]. iIntros (l' q) "H N". rewrite own_union; [|done]. iDestruct "H" as "[H T]". iApply sim_ok. iApply wp_bind. iApply (wp_relation_free b [t]). iSplitL "T"; [rewrite M_own; iExists h2; by iFrame|].
    iApply wp_ret. iApply ("K" with "H N").
  - apply sees_nothing in Sv as ->. iApply sim_heap. iApply wp_ret.
    assert (osl_relation_concat_constraints l [] = bind (osl_relation_concat_constraints l []) Ok) as -> by by destruct (osl_relation_concat_constraints l []).
    iApply sim_bind. iApply (sim_concat_constraints h a l NULL []); [done|exists ∅; split; [apply map_empty_subseteq|by split]|]. iFrame "H". iIntros (l' q) "H N". iApply sim_ok.
    iApply wp_bind. iApply (wp_relation_free NULL []). rewrite M_relation_nil. iSplitR; [done|]. iApply wp_ret. iApply ("K" with "H N").
Qed.
End MAT.
