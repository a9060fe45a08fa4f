(** * MatProofs4: rows and columns inserted, removed, replaced, copied *)
From stdpp Require Import gmap.
From iris.proofmode Require Import tactics.
From Coq Require Import ZifyBool ZifyNat.
From Verif Require Import Base IntModel VectorModel RelationModel Spec RelSpec LoopLemmas IntProofs RelationProofs HeapModel HeapObjects HeapSpec HeapLogic HeapProofs PayloadModel PayloadSpec PayloadProofs PayloadProofs2 MatModel MatSpec MatProofs MatProofs2 MatProofs3.
Local Open Scope string_scope.
Local Open Scope list_scope.
Local Open Scope Z_scope.
Local Open Scope bi_scope.

Section MAT.
Context {cfg : config} {al : Allocator obj}.

Lemma sim_map {A B D} (v : res B) (f : B → D) (c : oprog A) Q : sim v c (λ b a, Q (f b) a) ⊢ sim (bind v (λ b, Ok (f b))) c Q.
Proof. by destruct v. Qed.
Lemma sim_eq {A B} (v : res B) (c : oprog A) Q : sim v c (λ b a, <affine> ⌜v = Ok b⌝ -∗ Q b a) ⊢ sim v c Q.
Proof. iIntros "H". iApply sim_mono. iFrame "H". iIntros (b a) "%E K". by iApply "K". Qed.
Definition bare (r : relation) : relation := with_m r (nrows r) (ncols r) [].
Lemma M_part a r n : M (m_part a r n) ⊣⊢ ∃ m, a ↦ CBlock (BRel (bare r) m n) ∗ <affine> ⌜0 ≤ nrows r ∧ 0 ≤ ncols r⌝%Z ∗ M (m_matrix (rprec r) m (nrows r) (ncols r) (rm r)).
Proof.
  unfold m_part. iSplit.
  - iIntros "P". iDestruct "P" as (m) "(A & %B & D)". rewrite M_cell. iExists m. by iFrame.
  - iIntros "P". iDestruct "P" as (m) "(A & %B & D)". iExists m. rewrite !M_beside M_cell M_nothing. by iFrame.
Qed.
Lemma sees_part h a r n : sees h (m_part a r n) → (∃ m, h !! a = Some (CBlock (BRel (bare r) m n)) ∧ isnull a = false ∧ 0 ≤ nrows r ∧ 0 ≤ ncols r ∧
  sees h (m_matrix (rprec r) m (nrows r) (ncols r) (rm r)))%type.
Proof. intros (m & [[E Ha]%sees_cell [[H1 H2]%sees_nothing S]%sees_beside]%sees_beside)%sees_somewhere. exists m. split_and!; try done. by apply null_ne. Qed.
Lemma pmalloc_fields p R C r : osl_relation_pmalloc p R C = Ok r → (0 ≤ R ∧ 0 ≤ C ∧ ∃ mat : list (list Z), r = mkrel UNDEFINED p R C UNDEFINED UNDEFINED UNDEFINED UNDEFINED mat)%type.
Proof.
  unfold osl_relation_pmalloc. destruct (_ && _); [done|]. destruct (_ || _) eqn:E; [done|]. match goal with |- bind ?x _ = _ → _ => destruct x as [m| | |] end; cbn; try done. intros [= <-].
  split_and!; [lia|lia|by exists m].
Qed.
(** A fresh matrix with its shell. *)
Lemma sim_new p R C (Q : relation → ptr → oprop) :
  (∀ a m (mat : list (list Z)), <affine> ⌜0 ≤ R ∧ 0 ≤ C⌝%Z -∗ a ↦ CBlock (BRel (head UNDEFINED p R C UNDEFINED UNDEFINED UNDEFINED UNDEFINED) m NULL) -∗ M (m_matrix p m R C mat) -∗
     Q (mkrel UNDEFINED p R C UNDEFINED UNDEFINED UNDEFINED UNDEFINED mat) a) ⊢ sim (osl_relation_pmalloc p R C) (osl_relation_pmalloc_m p R C) Q.
Proof.
  iIntros "K". iApply sim_pmalloc. iIntros (r a) "%E P". apply pmalloc_fields in E as (HR & HC & mat & ->). rewrite M_part. iDestruct "P" as (m) "(A & _ & D)".
  iApply ("K" with "[//] A D").
Qed.
Lemma sim_copies h p ms R C src md R' C' dst lo hi si sj di dj (Q : list (list Z) → unit → oprop) : sees h (m_matrix p ms R C src) →
  own h ∗ M (m_matrix p md R' C' dst) ∗ (∀ dst', own h -∗ M (m_matrix p md R' C' dst') -∗ Q dst' tt) ⊢
  sim (cfor lo hi (λ j m, copy_cell p src (si j) (sj j) m (di j) (dj j)) dst) (zfor lo hi (λ j, copy_m p ms (si j) (sj j) md (di j) (dj j))) Q.
Proof.
  iIntros (S) "(H & D & K)". iApply (sim_cfor (λ m, own h ∗ M (m_matrix p md R' C' m))).
  - intros j s _. iApply sim_copy. exact S.
  - iFrame "H D". iIntros (s') "[H D]". iApply ("K" with "H D").
Qed.
(** The inside of a relation replaced by a fresh one. *)
Lemma wp_replace_inside a r n temp t m (R C : Z) mat (Q : _ → oprop) : (0 ≤ R)%Z → (0 ≤ C)%Z →
  M (m_part a r n) ∗ temp ↦ CBlock (BRel t m NULL) ∗ M (m_matrix (rprec r) m R C mat) ∗ (M (m_part a (with_m r R C mat) n) -∗ Q tt) ⊢ wp (replace_inside a temp R C) Q.
Proof.
  iIntros (HR HC) "(P & T & D & K)". rewrite M_part. iDestruct "P" as (m0) "(A & %Hr & D0)". iApply wp_bind. iApply (wp_free_inside a (bare r) m0 n _ (rm r)); [cbn; lia|cbn; lia|]. iFrame "A D0". iIntros "A".
  iApply wp_bind. iApply wp_get_part. iFrame "A". iIntros "A". iApply wp_bind. iApply wp_get_part. iFrame "T". iIntros "T". iApply wp_bind. iApply wp_put. iFrame "A". iIntros "A".
  iApply wp_free. iFrame "T". iApply "K". rewrite M_part. iExists m. iFrame "A D". iPureIntro. cbn. lia.
Qed.

(** *** replace_constraints *)
Lemma sim_replace_constraints h a1 r1 m1 n1 a2 r2 n2 row (Q : relation → unit → oprop) : sees h (m_part a2 r2 n2) →
  own h ∗ a1 ↦ CBlock (BRel (bare r1) m1 n1) ∗ M (m_matrix (rprec r1) m1 (nrows r1) (ncols r1) (rm r1)) ∗
  (∀ mat, own h -∗ a1 ↦ CBlock (BRel (bare r1) m1 n1) -∗ M (m_matrix (rprec r1) m1 (nrows r1) (ncols r1) mat) -∗ Q (with_m r1 (nrows r1) (ncols r1) mat) tt) ⊢
  sim (osl_relation_replace_constraints r1 r2 row) (osl_relation_replace_constraints_m a1 a2 row) Q.
Proof.
  intros (m2 & E2 & Ea2 & _ & _ & S2)%sees_part. iIntros "(H & A & D & K)".
  unfold osl_relation_replace_constraints_m. iDestruct (isnull_false with "A") as "[%Ea1 A]". rewrite Ea1 Ea2. cbn [orb].
  iApply sim_heap. iApply wp_get_part. iFrame "A". iIntros "A". iApply sim_heap. iApply wp_get_part_own; [done|]. iFrame "H". iIntros "H".
  unfold osl_relation_replace_constraints. cbn [bare with_m rprec nrows ncols]. destruct (_ || _) eqn:Eg; [iStopProof; apply sim_err|].
  assert (rprec r1 = rprec r2) as Ep by lia. rewrite -Ep in S2.
  iApply sim_map. iApply (sim_cfor (λ m, own h ∗ M (m_matrix (rprec r1) m1 (nrows r1) (ncols r1) m))).
  - intros j s _. iIntros "[H D]". iApply sim_copies; [done|]. iFrame. iIntros (d) "H D". iFrame.
  - iFrame "H D". iIntros (m) "[H D]". iApply ("K" with "H A D").
Qed.
Lemma sim_ok {A B} (b : B) (c : oprog A) Q : wp c (Q b) ⊢ sim (Ok b) c Q.
Proof. done. Qed.

(** *** insert_constraints: [r2] may be [r1] *)
Lemma sim_insert_constraints h1 hr a1 r1 n1 a2 r2 n2 row (Q : relation → unit → oprop) : h1 ##ₘ hr → m_part a1 r1 n1 h1 → sees (h1 ∪ hr) (m_part a2 r2 n2) →
  own (h1 ∪ hr) ∗ (∀ r', own hr -∗ M (m_part a1 r' n1) -∗ Q r' tt) ⊢
  sim (osl_relation_insert_constraints r1 r2 row) (osl_relation_insert_constraints_m a1 a2 row) Q.
Proof.
  intros Hd H1 S2. assert (sees (h1 ∪ hr) (m_part a1 r1 n1)) as S1 by (apply (sees_mono h1); [by apply map_union_subseteq_l|by apply sees_self]).
  destruct (sees_part _ _ _ _ S1) as (m1 & E1 & Ea1 & HR1 & HC1 & X1). destruct (sees_part _ _ _ _ S2) as (m2 & E2 & Ea2 & HR2 & HC2 & X2).
  iIntros "[H K]". unfold osl_relation_insert_constraints_m. rewrite Ea1 Ea2. cbn [orb].
  iApply sim_heap. iApply wp_get_part_own; [done|]. iFrame "H". iIntros "H". iApply sim_heap. iApply wp_get_part_own; [done|]. iFrame "H". iIntros "H".
  unfold osl_relation_insert_constraints. unfold bare. cbn [with_m rprec nrows ncols]. set (row' := if Z.eqb row (-1) then nrows r1 else row).
  destruct (_ || _) eqn:Eg; [iStopProof; apply sim_err|]. assert (rprec r1 = rprec r2) as Ep by lia. assert (ncols r1 = ncols r2) as Ec by lia.
  iApply sim_bind. iApply sim_new. iIntros (temp mt mat) "%Ht T D". cbn [rm nrows ncols with_m]. iApply sim_heap. iApply wp_get_part. iFrame "T". iIntros "T".
  iApply sim_bind. iApply (sim_cfor (λ m, own (h1 ∪ hr) ∗ M (m_matrix (rprec r1) mt (nrows r1 + nrows r2) (ncols r1) m))).
  { intros j s _. iIntros "[H D]". iApply sim_copies; [done|]. iFrame. iIntros (d) "H D". iFrame. }
  iFrame "H D". iIntros (m) "[H D]". iApply sim_bind. iApply (sim_replace_constraints (h1 ∪ hr) temp _ mt NULL a2 r2 n2 row'); [done|]. cbn [with_m rm nrows ncols rprec]. iFrame "H T D".
  iIntros (m') "H T D". iApply sim_bind. iApply (sim_cfor (λ m, own (h1 ∪ hr) ∗ M (m_matrix (rprec r1) mt (nrows r1 + nrows r2) (ncols r1) m))).
  { intros j s _. iIntros "[H D]". iApply (sim_copies _ _ _ _ _ _ _ _ _ _ _ _ (λ _, (j - nrows r2)%Z) (λ j, j) (λ _, j) (λ j, j)); [done|]. iFrame. iIntros (d) "H D". iFrame. }
  iFrame "H D". iIntros (m'') "[H D]". iApply sim_ok. rewrite own_union; [|done]. iDestruct "H" as "[H Hr]".
  iApply (wp_replace_inside a1 r1 n1 temp _ mt (nrows r1 + nrows r2) (ncols r1)); [lia|lia|]. iFrame "T D". iSplitL "H"; [rewrite M_own; iExists h1; by iFrame|]. iIntros "P". iApply ("K" with "Hr P").
Qed.

(** *** Rows and columns *)
Lemma sim_remove_row a r n row (Q : relation → unit → oprop) : M (m_part a r n) ∗ (∀ r', M (m_part a r' n) -∗ Q r' tt) ⊢ sim (osl_relation_remove_row r row) (osl_relation_remove_row_m a row) Q.
Proof.
  iIntros "[P K]". rewrite {1}M_own. iDestruct "P" as (h) "[%Hh H]". destruct (sees_part h a r n) as (m & E & Ea & HR & HC & S); [by apply sees_self|].
  unfold osl_relation_remove_row_m. rewrite Ea. iApply sim_heap. iApply wp_get_part_own; [done|]. iFrame "H". iIntros "H".
  unfold osl_relation_remove_row. cbn [bare with_m rprec nrows ncols]. destruct (_ || _) eqn:Eg; [iStopProof; apply sim_err|].
  iApply sim_bind. iApply sim_new. iIntros (temp mt mat) "%Ht T D". cbn [rm nrows ncols with_m]. iApply sim_heap. iApply wp_get_part. iFrame "T". iIntros "T".
  iApply sim_bind. iApply (sim_cfor (λ m, own h ∗ M (m_matrix (rprec r) mt (nrows r - 1) (ncols r) m))).
  { intros j s _. iIntros "[H D]". iApply sim_copies; [done|]. iFrame. iIntros (d) "H D". iFrame. }
  iFrame "H D". iIntros (m') "[H D]". iApply sim_bind. iApply (sim_cfor (λ m, own h ∗ M (m_matrix (rprec r) mt (nrows r - 1) (ncols r) m))).
  { intros j s _. iIntros "[H D]". iApply (sim_copies _ _ _ _ _ _ _ _ _ _ _ _ (λ _, j) (λ j, j) (λ _, (j - 1)%Z) (λ j, j)); [done|]. iFrame. iIntros (d) "H D". iFrame. }
  iFrame "H D". iIntros (m'') "[H D]". iApply sim_ok. iApply (wp_replace_inside a r n temp _ mt (nrows r - 1) (ncols r)); [lia|lia|]. iFrame "T D". iSplitL "H"; [rewrite M_own; iExists h; by iFrame|]. iIntros "P". iApply ("K" with "P").
Qed.
Lemma sim_insert_blank_column a r n column (Q : relation → unit → oprop) : M (m_part a r n) ∗ (∀ r', M (m_part a r' n) -∗ Q r' tt) ⊢
  sim (osl_relation_insert_blank_column r column) (osl_relation_insert_blank_column_m a column) Q.
Proof.
  iIntros "[P K]". rewrite {1}M_own. iDestruct "P" as (h) "[%Hh H]". destruct (sees_part h a r n) as (m & E & Ea & HR & HC & S); [by apply sees_self|].
  unfold osl_relation_insert_blank_column_m. rewrite Ea. iApply sim_heap. iApply wp_get_part_own; [done|]. iFrame "H". iIntros "H".
  unfold osl_relation_insert_blank_column. cbn [bare with_m rprec nrows ncols]. destruct (_ || _) eqn:Eg; [iStopProof; apply sim_err|].
  iApply sim_bind. iApply sim_new. iIntros (temp mt mat) "%Ht T D". cbn [rm nrows ncols with_m]. iApply sim_heap. iApply wp_get_part. iFrame "T". iIntros "T".
  iApply sim_bind. iApply (sim_cfor (λ m, own h ∗ M (m_matrix (rprec r) mt (nrows r) (ncols r + 1) m))).
  { intros j s _. iIntros "[H D]". iApply sim_bind. iApply sim_copies; [done|]. iFrame. iIntros (d) "H D".
    iApply (sim_copies _ _ _ _ _ _ _ _ _ _ _ _ (λ _, j) (λ j, j) (λ _, j) (λ j, (j + 1)%Z)); [done|]. iFrame. iIntros (d') "H D". iFrame. }
  iFrame "H D". iIntros (m') "[H D]". iApply sim_ok. iApply (wp_replace_inside a r n temp _ mt (nrows r) (ncols r + 1)); [lia|lia|]. iFrame "T D". iSplitL "H"; [rewrite M_own; iExists h; by iFrame|]. iIntros "P". iApply ("K" with "P").
Qed.
Lemma sim_remove_column a r n column (Q : relation → unit → oprop) : M (m_part a r n) ∗ (∀ r', M (m_part a r' n) -∗ Q r' tt) ⊢
  sim (osl_relation_remove_column r column) (osl_relation_remove_column_m a column) Q.
Proof.
  iIntros "[P K]". rewrite {1}M_own. iDestruct "P" as (h) "[%Hh H]". destruct (sees_part h a r n) as (m & E & Ea & HR & HC & S); [by apply sees_self|].
  unfold osl_relation_remove_column_m. rewrite Ea. iApply sim_heap. iApply wp_get_part_own; [done|]. iFrame "H". iIntros "H".
  unfold osl_relation_remove_column. cbn [bare with_m rprec nrows ncols]. destruct (_ || _) eqn:Eg; [iStopProof; apply sim_err|].
  iApply sim_bind. iApply sim_new. iIntros (temp mt mat) "%Ht T D". cbn [rm nrows ncols with_m]. iApply sim_heap. iApply wp_get_part. iFrame "T". iIntros "T".
  iApply sim_bind. iApply (sim_cfor (λ m, own h ∗ M (m_matrix (rprec r) mt (nrows r) (ncols r - 1) m))).
  { intros j s _. iIntros "[H D]". iApply sim_bind. iApply sim_copies; [done|]. iFrame. iIntros (d) "H D".
    iApply (sim_copies _ _ _ _ _ _ _ _ _ _ _ _ (λ _, j) (λ j, j) (λ _, j) (λ j, (j - 1)%Z)); [done|]. iFrame. iIntros (d') "H D". iFrame. }
  iFrame "H D". iIntros (m') "[H D]". iApply sim_ok. iApply (wp_replace_inside a r n temp _ mt (nrows r) (ncols r - 1)); [lia|lia|]. iFrame "T D". iSplitL "H"; [rewrite M_own; iExists h; by iFrame|]. iIntros "P". iApply ("K" with "P").
Qed.
(** *** insert_columns: [r2] may be [r1] *)
Lemma sim_insert_columns h1 hr a1 r1 n1 a2 r2 n2 column (Q : relation → unit → oprop) : h1 ##ₘ hr → m_part a1 r1 n1 h1 → sees (h1 ∪ hr) (m_part a2 r2 n2) →
  own (h1 ∪ hr) ∗ (∀ r', own hr -∗ M (m_part a1 r' n1) -∗ Q r' tt) ⊢
  sim (osl_relation_insert_columns r1 r2 column) (osl_relation_insert_columns_m a1 a2 column) Q.
Proof.
  intros Hd H1 S2. assert (sees (h1 ∪ hr) (m_part a1 r1 n1)) as S1 by (apply (sees_mono h1); [by apply map_union_subseteq_l|by apply sees_self]).
  destruct (sees_part _ _ _ _ S1) as (m1 & E1 & Ea1 & HR1 & HC1 & X1). destruct (sees_part _ _ _ _ S2) as (m2 & E2 & Ea2 & HR2 & HC2 & X2).
  iIntros "[H K]". unfold osl_relation_insert_columns_m. rewrite Ea1 Ea2. cbn [orb].
  iApply sim_heap. iApply wp_get_part_own; [done|]. iFrame "H". iIntros "H". iApply sim_heap. iApply wp_get_part_own; [done|]. iFrame "H". iIntros "H".
  unfold osl_relation_insert_columns. unfold bare. cbn [with_m rprec nrows ncols].
  destruct (_ || _) eqn:Eg; [iStopProof; apply sim_err|]. assert (rprec r1 = rprec r2) as Ep by lia. rewrite -Ep in X2.
  iApply sim_bind. iApply sim_new. iIntros (temp mt mat) "%Ht T D". cbn [rm nrows ncols with_m]. iApply sim_heap. iApply wp_get_part. iFrame "T". iIntros "T".
  iApply sim_bind. iApply (sim_cfor (λ m, own (h1 ∪ hr) ∗ M (m_matrix (rprec r1) mt (nrows r1) (ncols r1 + ncols r2) m))).
  { intros j s _. iIntros "[H D]". iApply sim_bind. iApply sim_copies; [done|]. iFrame. iIntros (d) "H D". iApply sim_bind.
    iApply (sim_copies _ _ _ _ _ _ _ _ _ _ _ _ (λ _, j) (λ j, (j - column)%Z) (λ _, j) (λ j, j)); [done|]. iFrame. iIntros (d') "H D".
    iApply (sim_copies _ _ _ _ _ _ _ _ _ _ _ _ (λ _, j) (λ j, (j - ncols r2)%Z) (λ _, j) (λ j, j)); [done|]. iFrame. iIntros (d'') "H D". iFrame. }
  iFrame "H D". iIntros (m') "[H D]". iApply sim_ok. rewrite own_union; [|done]. iDestruct "H" as "[H Hr]".
  iApply (wp_replace_inside a1 r1 n1 temp _ mt (nrows r1) (ncols r1 + ncols r2)); [lia|lia|]. iFrame "T D". iSplitL "H"; [rewrite M_own; iExists h1; by iFrame|]. iIntros "P". iApply ("K" with "Hr P").
Qed.
End MAT.
