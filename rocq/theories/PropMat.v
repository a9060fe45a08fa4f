(** * PropMat: editing vectors and the matrices of relations in memory (C54)

    Every program of MatModel.v, on the blocks the C code allocates, does what the functions of VectorModel.v and
    RelationModel.v say of the values: [agrees] (MatSpec.v).  Memory is accounted for exactly: what is not in the
    result has been freed, what is [exactly h] has not been touched, and whatever else is allocated is left alone. *)
From stdpp Require Import gmap.
From iris.proofmode Require Import tactics.
From Coq Require Import ZifyBool ZifyNat.
From Verif Require Import Base IntModel VectorModel VectorProofs RelationModel Spec RelSpec LoopLemmas IntProofs RelationProofs HeapModel HeapObjects HeapSpec HeapLogic HeapProofs PayloadModel PayloadSpec PayloadProofs PayloadProofs2 PayloadProofs5 PropHeap PropHeap2 RelationProofs2 RelationProofs3 PropRelation PropRelation2 PropVector PayloadExists MatModel MatSpec MatProofs MatProofs2 MatProofs3 MatProofs4 MatProofs5 MatProofs6 MatProofs7 MatProofs8.
Local Open Scope string_scope.
Local Open Scope list_scope.
Local Open Scope Z_scope.
Notation loop := HeapModel.loop.
Notation cell := PayloadSpec.cell.

Section P.
Context (cfg : config) (al : Allocator obj).

Lemma agrees_intro {A B} (P : oprop) (Q' : B → A → oprop) (v : res B) c h (Q : B → A → mem) : (P ⊢ sim v c Q') → P h → (∀ b a h', Q' b a h' → Q b a h') → agrees v c h Q.
Proof. intros H HP HQ. destruct v; cbn [agrees sim] in *; [eapply runs_intro; [exact H|exact HP|]; intros; by apply HQ|by eapply stops_intro|done..]. Qed.
(** A result in memory of its own, beside [h] as it was. *)
Lemma agrees_new {X} h (m : ptr → X → mem) (v : res X) (c : oprog ptr) :
  (∀ Q : X → ptr → oprop, (own h ∗ (∀ x q, own h -∗ M (m q x) -∗ Q x q))%I ⊢ sim v c Q) → agrees v c h (λ x q, exactly h ⋆ m q x).
Proof.
  intros H. apply (agrees_intro (own h) (λ x q, own h ∗ M (m q x))%I); [|done|].
  - iIntros "H". iApply H. iFrame "H". iIntros (x q) "H N". iFrame.
  - intros x q h' (h1 & h2 & -> & Hd & H1 & H2). exists h1, h2. split_and!; [done|done|exact H1|exact H2].
Qed.
(** An object changed in place. *)
Lemma agrees_edit {X} h (m : X → mem) x (v : res X) (c : oprog unit) : m x h →
  (∀ Q : X → unit → oprop, (M (m x) ∗ (∀ x', M (m x') -∗ Q x' tt))%I ⊢ sim v c Q) → agrees v c h (λ x' _, m x').
Proof.
  intros Hm H. apply (agrees_intro (M (m x)) (λ x' _, M (m x'))); [|exact Hm|by intros].
  iIntros "H". iApply H. iFrame "H". iIntros (x') "N". iFrame.
Qed.
(** An object changed in place, with another one that is only read. *)
Lemma agrees_edit2 {X} h1 h2 (m : X → mem) x (v : res X) (c : oprog unit) : m x h1 → h1 ##ₘ h2 →
  (∀ Q : X → unit → oprop, (own h2 ∗ M (m x) ∗ (∀ x', own h2 -∗ M (m x') -∗ Q x' tt))%I ⊢ sim v c Q) → agrees v c (h1 ∪ h2) (λ x' _, m x' ⋆ exactly h2).
Proof.
  intros Hm Hd H. apply (agrees_intro (M (m x) ∗ own h2) (λ x' _, M (m x') ∗ own h2))%I.
  - iIntros "[H O]". iApply H. iFrame "H O". iIntros (x') "O N". iFrame.
  - by apply sep_intro.
  - intros x' _ h' (h3 & h4 & -> & Hd' & H1 & H2). exists h3, h4. split_and!; [done|done|exact H1|exact H2].
Qed.

(** ** Rows and columns, in place *)
Theorem C54_row_edits : ∀ h a r n row row2, m_part a r n h →
  agrees (osl_relation_remove_row r row) (osl_relation_remove_row_m a row) h (λ r' _, m_part a r' n) ∧
  agrees (osl_relation_insert_blank_row r row) (osl_relation_insert_blank_row_m a row) h (λ r' _, m_part a r' n) ∧
  agrees (osl_relation_swap_constraints r row row2) (osl_relation_swap_constraints_m a row row2) h (λ r' _, m_part a r' n).
Proof.
  intros h a r n row row2 H. split_and!; apply (agrees_edit h (λ r, m_part a r n) r); auto; intros Q;
    [apply sim_remove_row|apply sim_insert_blank_row|apply sim_swap_constraints].
Qed.
Theorem C54_column_edits : ∀ h a r n column, m_part a r n h →
  agrees (osl_relation_remove_column r column) (osl_relation_remove_column_m a column) h (λ r' _, m_part a r' n) ∧
  agrees (osl_relation_insert_blank_column r column) (osl_relation_insert_blank_column_m a column) h (λ r' _, m_part a r' n).
Proof.
  intros h a r n column H. split; apply (agrees_edit h (λ r, m_part a r n) r); auto; intros Q; [apply sim_remove_column|apply sim_insert_blank_column].
Qed.

(** ** With another relation or a vector, which is left as it is *)
Lemma sim_replace_constraints' h a1 r1 n1 a2 r2 n2 row (Q : relation → unit → oprop) : sees h (m_part a2 r2 n2) →
  (own h ∗ M (m_part a1 r1 n1) ∗ (∀ r', own h -∗ M (m_part a1 r' n1) -∗ Q r' tt))%I ⊢
  sim (osl_relation_replace_constraints r1 r2 row) (osl_relation_replace_constraints_m a1 a2 row) Q.
Proof.
  intros S. iIntros "(H & P & K)". rewrite M_part. iDestruct "P" as (m) "(A & %Hr & D)". iApply sim_replace_constraints; [exact S|]. iFrame "H A D".
  iIntros (mat) "H A D". iApply ("K" with "H"). rewrite M_part. iExists m. cbn [with_m nrows ncols rprec rm]. iFrame. done.
Qed.
Lemma sim_replace_vector' h a r n pv v row (Q : relation → unit → oprop) : sees h (m_vector pv v) →
  (own h ∗ M (m_part a r n) ∗ (∀ r', own h -∗ M (m_part a r' n) -∗ Q r' tt))%I ⊢ sim (osl_relation_replace_vector r v row) (osl_relation_replace_vector_m a pv row) Q.
Proof.
  intros S. iIntros "(H & P & K)". rewrite M_part. iDestruct "P" as (m) "(A & %Hr & D)". iApply sim_replace_vector; [exact S|]. iFrame "H A D".
  iIntros (mat) "H A D". iApply ("K" with "H"). rewrite M_part. iExists m. cbn [with_m nrows ncols rprec rm]. iFrame. done.
Qed.
Lemma sim_combine_vector' op h a r n pv v row (Q : relation → unit → oprop) : sees h (m_vector pv v) →
  (own h ∗ M (m_part a r n) ∗ (∀ r', own h -∗ M (m_part a r' n) -∗ Q r' tt))%I ⊢ sim (combine_vector op r v row) (combine_vector_m op a pv row) Q.
Proof.
  intros S. iIntros "(H & P & K)". rewrite M_part. iDestruct "P" as (m) "(A & %Hr & D)". iApply sim_combine_vector; [exact S|]. iFrame "H A D".
  iIntros (mat) "H A D". iApply ("K" with "H"). rewrite M_part. iExists m. cbn [with_m nrows ncols rprec rm]. iFrame. done.
Qed.
Theorem C54_relation_edits : ∀ h1 h2 a1 r1 n1 a2 r2 n2 k, m_part a1 r1 n1 h1 → m_part a2 r2 n2 h2 → h1 ##ₘ h2 →
  agrees (osl_relation_replace_constraints r1 r2 k) (osl_relation_replace_constraints_m a1 a2 k) (h1 ∪ h2) (λ r' _, m_part a1 r' n1 ⋆ exactly h2) ∧
  agrees (osl_relation_insert_constraints r1 r2 k) (osl_relation_insert_constraints_m a1 a2 k) (h1 ∪ h2) (λ r' _, m_part a1 r' n1 ⋆ exactly h2) ∧
  agrees (osl_relation_insert_columns r1 r2 k) (osl_relation_insert_columns_m a1 a2 k) (h1 ∪ h2) (λ r' _, m_part a1 r' n1 ⋆ exactly h2).
Proof.
  intros h1 h2 a1 r1 n1 a2 r2 n2 k H1 H2 Hd. assert (sees (h1 ∪ h2) (m_part a2 r2 n2)) as S by (exists h2; split; [by apply map_union_subseteq_r|done]).
  split_and!.
  - apply (agrees_edit2 h1 h2 (λ r, m_part a1 r n1) r1); [done|done|]. intros Q. apply (sim_replace_constraints' _ _ _ _ _ _ n2). by apply sees_self.
  - apply (agrees_intro (own (h1 ∪ h2)) (λ r' _, M (m_part a1 r' n1) ∗ own h2))%I; [|done|].
    + iIntros "H". iApply (sim_insert_constraints h1 h2); [done|done|exact S|]. iFrame "H". iIntros (r') "H N". iFrame.
    + intros x' _ h' (h3 & h4 & -> & Hd' & E1 & E2). exists h3, h4. split_and!; [done|done|exact E1|exact E2].
  - apply (agrees_intro (own (h1 ∪ h2)) (λ r' _, M (m_part a1 r' n1) ∗ own h2))%I; [|done|].
    + iIntros "H". iApply (sim_insert_columns h1 h2); [done|done|exact S|]. iFrame "H". iIntros (r') "H N". iFrame.
    + intros x' _ h' (h3 & h4 & -> & Hd' & E1 & E2). exists h3, h4. split_and!; [done|done|exact E1|exact E2].
Qed.
(** A relation inserted into itself: its constraints or its columns are doubled. *)
Theorem C54_self_insert : ∀ h a r n k, m_part a r n h →
  agrees (osl_relation_insert_constraints r r k) (osl_relation_insert_constraints_m a a k) h (λ r' _, m_part a r' n) ∧
  agrees (osl_relation_insert_columns r r k) (osl_relation_insert_columns_m a a k) h (λ r' _, m_part a r' n).
Proof.
  intros h a r n k H. assert (sees (h ∪ ∅) (m_part a r n)) as S by (rewrite right_id_L; by apply sees_self).
  split; apply (agrees_intro (own (h ∪ ∅)) (λ r' _, M (m_part a r' n) ∗ own ∅))%I.
  - iIntros "H". iApply (sim_insert_constraints h ∅); [apply map_disjoint_empty_r|done|exact S|]. iFrame "H". iIntros (r') "H N". iFrame.
  - cbn. by rewrite right_id_L.
  - intros r' _ h' (h3 & h4 & -> & Hd & H1 & H2). cbn in H2. subst h4. rewrite right_id_L. exact H1.
  - iIntros "H". iApply (sim_insert_columns h ∅); [apply map_disjoint_empty_r|done|exact S|]. iFrame "H". iIntros (r') "H N". iFrame.
  - cbn. by rewrite right_id_L.
  - intros r' _ h' (h3 & h4 & -> & Hd & H1 & H2). cbn in H2. subst h4. rewrite right_id_L. exact H1.
Qed.
Theorem C54_vector_edits : ∀ h1 h2 a r n pv v row, m_part a r n h1 → m_vector pv v h2 → h1 ##ₘ h2 →
  agrees (osl_relation_replace_vector r v row) (osl_relation_replace_vector_m a pv row) (h1 ∪ h2) (λ r' _, m_part a r' n ⋆ exactly h2) ∧
  agrees (osl_relation_insert_vector r v row) (osl_relation_insert_vector_m a pv row) (h1 ∪ h2) (λ r' _, m_part a r' n ⋆ exactly h2) ∧
  agrees (osl_relation_add_vector r v row) (osl_relation_add_vector_m a pv row) (h1 ∪ h2) (λ r' _, m_part a r' n ⋆ exactly h2) ∧
  agrees (osl_relation_sub_vector r v row) (osl_relation_sub_vector_m a pv row) (h1 ∪ h2) (λ r' _, m_part a r' n ⋆ exactly h2).
Proof.
  intros h1 h2 a r n pv v row H1 H2 Hd. pose proof (sees_self _ _ H2) as S.
  split_and!; apply (agrees_edit2 h1 h2 (λ r, m_part a r n) r); auto; intros Q; [by apply sim_replace_vector'|by apply sim_insert_vector|by apply sim_combine_vector'..].
Qed.

(** ** New objects; the arguments may be the same object, or share their parts *)
Theorem C54_allocations : ∀ p rows columns size,
  agrees (osl_relation_pmalloc p rows columns) (osl_relation_pmalloc_m p rows columns) ∅ (λ r a, m_part a r NULL) ∧
  agrees (osl_vector_pmalloc p size) (osl_vector_pmalloc_m p size) ∅ (λ v a, m_vector a v).
Proof.
  intros p R C size. split.
  - apply (agrees_intro emp (λ r a, M (m_part a r NULL)))%I; [|done|by intros]. iIntros "_". iApply sim_pmalloc. iIntros (r a) "_ P". iFrame.
  - apply (agrees_intro emp (λ v a, M (m_vector a v)))%I; [|done|by intros]. iIntros "_". iApply sim_vpmalloc. iIntros (a b l) "P". rewrite M_vector. iExists b. iFrame.
Qed.
Theorem C54_copies : ∀ h a l n, within h (m_relation a l) →
  agrees (osl_relation_clone l) (osl_relation_clone_m a) h (λ l' q, exactly h ⋆ m_relation q l') ∧
  agrees (osl_relation_nclone l n) (osl_relation_nclone_m a n) h (λ l' q, exactly h ⋆ m_relation q l') ∧
  runs_to (osl_relation_nb_components_m a) h (λ k h', k = zlength l ∧ h' = h).
Proof.
  intros h a l n S. split_and!.
  - apply (agrees_new h m_relation). intros Q. by apply sim_clone.
  - apply (agrees_new h m_relation). intros Q. by apply sim_nclone.
  - apply (runs_intro (own h) (λ k, <affine> ⌜k = zlength l⌝ ∗ own h))%I; [|done|].
    + iIntros "H". iApply wp_nb_components; [exact S|]. iFrame "H". iIntros "H". iFrame. iPureIntro. apply nb_components_length.
    + intros k h' (h1 & h2 & -> & Hd & [E1 E] & E2). cbn in E2. change (h1 = ∅) in E1. subst h1 h2. by rewrite left_id_L.
Qed.
Theorem C54_concat : ∀ h a1 l1 a2 l2 pv v, within h (m_relation a1 l1) → within h (m_relation a2 l2) → within h (m_vector pv v) →
  agrees (osl_relation_concat_constraints l1 l2) (osl_relation_concat_constraints_m a1 a2) h (λ l' q, exactly h ⋆ m_relation q l') ∧
  agrees (osl_relation_concat_vector l1 (Some v)) (osl_relation_concat_vector_m a1 pv) h (λ l' q, exactly h ⋆ m_relation q l') ∧
  agrees (osl_relation_concat_vector l1 None) (osl_relation_concat_vector_m a1 NULL) h (λ l' q, exactly h ⋆ m_relation q l') ∧
  agrees (osl_relation_from_vector v) (osl_relation_from_vector_m pv) h (λ r q, exactly h ⋆ m_part q r NULL).
Proof.
  intros h a1 l1 a2 l2 pv v S1 S2 S3. split_and!.
  - apply (agrees_new h m_relation). intros Q. by apply sim_concat_constraints.
  - apply (agrees_new h m_relation). intros Q. by apply sim_concat_vector.
  - apply (agrees_new h m_relation). intros Q. apply sim_concat_vector; [done|]. exists ∅. split; [apply map_empty_subseteq|done].
  - apply (agrees_new h (λ q r, m_part q r NULL)). intros Q. by apply sim_from_vector.
Qed.
Theorem C54_extend_output : ∀ h a r l dim, within h (m_relation a (r :: l)) → Forall (λ x, rprec x = rprec r) l →
  agrees (osl_relation_extend_output (r :: l) dim) (osl_relation_extend_output_m a dim) h (λ l' q, exactly h ⋆ m_relation q l').
Proof. intros h a r l dim S Hp. apply (agrees_new h m_relation). intros Q. by apply sim_extend_output. Qed.
Theorem C54_vectors : ∀ h a1 v1 a2 v2 scalar, within h (m_vector a1 v1) → within h (m_vector a2 v2) →
  agrees (osl_vector_add (Some v1) (Some v2)) (osl_vector_add_m a1 a2) h (λ v q, exactly h ⋆ m_vector q v) ∧
  agrees (osl_vector_sub (Some v1) (Some v2)) (osl_vector_sub_m a1 a2) h (λ v q, exactly h ⋆ m_vector q v) ∧
  agrees (osl_vector_add_scalar (Some v1) scalar) (osl_vector_add_scalar_m a1 scalar) h (λ v q, exactly h ⋆ m_vector q v) ∧
  agrees (osl_vector_mul_scalar (Some v1) scalar) (osl_vector_mul_scalar_m a1 scalar) h (λ v q, exactly h ⋆ m_vector q v).
Proof.
  intros h a1 v1 a2 v2 scalar S1 S2. split_and!; apply (agrees_new h m_vector); intros Q; [by apply sim_zip..|by apply sim_add_scalar|by apply sim_mul_scalar].
Qed.
Lemma tag_inequality v : osl_vector_tag_inequality (Some v) = tagged 1 v.
Proof. unfold osl_vector_tag_inequality, tagged. destruct (_ <? _); [done|]. destruct (osl_int_set_si _ _); cbn; try done. Qed.
Lemma tag_equality v : osl_vector_tag_equality (Some v) = tagged 0 v.
Proof. unfold osl_vector_tag_equality, tagged. destruct (_ <? _); [done|]. destruct (osl_int_set_si _ _); cbn; try done. Qed.
Theorem C54_vector_tags : ∀ h a v, m_vector a v h →
  agrees (osl_vector_tag_inequality (Some v)) (osl_vector_tag_inequality_m a) h (λ v' _, m_vector a v') ∧
  agrees (osl_vector_tag_equality (Some v)) (osl_vector_tag_equality_m a) h (λ v' _, m_vector a v').
Proof.
  intros h a v H. rewrite tag_inequality tag_equality. split; apply (agrees_edit h (m_vector a) v); auto; intros Q; apply sim_tag.
Qed.

(** ** Comparison *)
Theorem C54_equal : ∀ h a1 l1 a2 l2, within h (m_relation a1 l1) → within h (m_relation a2 l2) →
  agrees (osl_relation_equal l1 l2) (osl_relation_equal_m a1 a2) h (λ b b' h', b' = b ∧ h' = h).
Proof.
  intros h a1 l1 a2 l2 S1 S2. apply (agrees_intro (own h) (λ b b', <affine> ⌜b' = b⌝ ∗ own h))%I; [|done|].
  - iIntros "H". iApply sim_equal; [exact S1|exact S2|]. iFrame "H". iIntros (b) "H". by iFrame.
  - intros b b' h' (h1 & h2 & -> & Hd & [E1 E] & E2). cbn in E2. change (h1 = ∅) in E1. subst h1 h2. by rewrite left_id_L.
Qed.

(** ** Change of precision: the GMP numbers that are no longer needed are freed, those that are needed allocated *)
Theorem C54_set_precision : ∀ h a l p, m_relation a l h →
  agrees (osl_relation_set_precision p l) (osl_relation_set_precision_m p a) h (λ l' _, m_relation a l').
Proof. intros h a l p H. apply (agrees_edit h (m_relation a) l); [done|]. intros Q. apply sim_set_precision. Qed.
Theorem C54_set_same_precision : ∀ h1 h2 a la b lb, m_relation a la h1 → m_relation b lb h2 → h1 ##ₘ h2 →
  agrees (osl_relation_set_same_precision la lb) (osl_relation_set_same_precision_m a b) (h1 ∪ h2) (λ l _, m_relation a (fst l) ⋆ m_relation b (snd l)).
Proof.
  intros h1 h2 a la b lb H1 H2 Hd. apply (agrees_intro (M (m_relation a la) ∗ M (m_relation b lb)) (λ l _, M (m_relation a (fst l)) ∗ M (m_relation b (snd l))))%I.
  - iIntros "[A B]". iApply sim_set_same_precision. iFrame "A B". iIntros (la' lb') "A B". cbn [fst snd]. iFrame.
  - by apply sep_intro.
  - intros l _ h' (h3 & h4 & -> & Hd' & E1 & E2). exists h3, h4. split_and!; [done|done|exact E1|exact E2].
Qed.

(** ** Freeing leaves nothing, GMP numbers included *)
Theorem C54_free : ∀ h a l, m_relation a l h → runs_to (osl_relation_free_m a) h (λ _ h', h' = ∅).
Proof. intros h a l H. apply (runs_intro (M (m_relation a l)) (λ _, emp)%I); [|exact H|done]. iIntros "H". iApply wp_relation_free. by iFrame. Qed.
Theorem C54_vector_free : ∀ h a v, m_vector a v h → runs_to (osl_vector_free_m a) h (λ _ h', h' = ∅).
Proof. intros h a v H. apply (runs_intro (M (m_vector a v)) (λ _, emp)%I); [|exact H|done]. iIntros "H". iApply wp_vector_free. by iFrame. Qed.
End P.
Print Assumptions C54_row_edits.
Print Assumptions C54_column_edits.
Print Assumptions C54_relation_edits.
Print Assumptions C54_self_insert.
Print Assumptions C54_vector_edits.
Print Assumptions C54_allocations.
Print Assumptions C54_copies.
Print Assumptions C54_concat.
Print Assumptions C54_extend_output.
Print Assumptions C54_vectors.
Print Assumptions C54_vector_tags.
Print Assumptions C54_equal.
Print Assumptions C54_set_precision.
Print Assumptions C54_set_same_precision.
Print Assumptions C54_free.
Print Assumptions C54_vector_free.

(** ** Together with what the functions say of the values (C10, C12, C13) *)
Section V.
Context (cfg : config) (al : Allocator obj).
Lemma agrees_ok {A B} (v : res B) (c : oprog A) h Q b : agrees v c h Q → v = Ok b → runs_to c h (Q b).
Proof. by intros H ->. Qed.
Lemma agrees_err {A B} (v : res B) (c : oprog A) h (Q : B → A → mem) : agrees v c h Q → v = Err → stops c h.
Proof. by intros H ->. Qed.
Theorem C54_remove_row : ∀ h a r n row, config_ok cfg → wf_rel cfg r → m_part a r n h →
  (0 ≤ row < nrows r → runs_to (osl_relation_remove_row_m a row) h (λ _, m_part a (with_rows r (ncols r) (remove_at row (rows r))) n)) ∧
  (row < 0 ∨ nrows r ≤ row → stops (osl_relation_remove_row_m a row) h).
Proof.
  intros h a r n row Hc W H. destruct (C54_row_edits cfg al h a r n row row H) as (A & _). split; intros Hr.
  - apply (agrees_ok _ _ _ _ _ A). by apply remove_row_ok.
  - apply (agrees_err _ _ _ _ A). apply remove_row_err. lia.
Qed.
Theorem C54_insert_blank_row : ∀ h a r n row, config_ok cfg → wf_rel cfg r → m_part a r n h →
  (0 ≤ row ≤ nrows r → runs_to (osl_relation_insert_blank_row_m a row) h (λ _, m_part a (with_rows r (ncols r) (insert_at row [repeat 0 (Z.to_nat (ncols r))] (rows r))) n)) ∧
  (row < -1 ∨ nrows r < row → stops (osl_relation_insert_blank_row_m a row) h).
Proof.
  intros h a r n row Hc W H. destruct (C54_row_edits cfg al h a r n row row H) as (_ & A & _). split; intros Hr.
  - apply (agrees_ok _ _ _ _ _ A). pose proof (insert_blank_row_ok Hc r row W) as E. cbv zeta in E. replace (row =? -1) with false in E by lia. apply E. lia.
  - apply (agrees_err _ _ _ _ A). apply insert_blank_row_err; [done|done|]. destruct (Z.eqb_spec row (-1)); lia.
Qed.
Theorem C54_columns : ∀ h a r n column, config_ok cfg → wf_rel cfg r → m_part a r n h →
  (0 ≤ column < ncols r → runs_to (osl_relation_remove_column_m a column) h (λ _, m_part a (with_rows r (ncols r - 1) (map (remove_at column) (rows r))) n)) ∧
  (column < 0 ∨ ncols r ≤ column → stops (osl_relation_remove_column_m a column) h) ∧
  (0 ≤ column ≤ ncols r → runs_to (osl_relation_insert_blank_column_m a column) h (λ _, m_part a (with_rows r (ncols r + 1) (map (insert_at column [0]) (rows r))) n)) ∧
  (column < 0 ∨ ncols r < column → stops (osl_relation_insert_blank_column_m a column) h).
Proof.
  intros h a r n column Hc W H. destruct (C54_column_edits cfg al h a r n column H) as (A & B).
  destruct (C13_column_edits cfg r r column Hc W W) as (E1 & _ & E2 & E3 & _ & E4). split_and!; intros Hr.
  - apply (agrees_ok _ _ _ _ _ A). by apply E2.
  - apply (agrees_err _ _ _ _ A). by apply E4.
  - apply (agrees_ok _ _ _ _ _ B). by apply E1.
  - apply (agrees_err _ _ _ _ B). by apply E3.
Qed.
Theorem C54_insert_vector : ∀ h1 h2 a r n pv v row, config_ok cfg → wf_rel cfg r → wf_vec cfg v → m_part a r n h1 → m_vector pv v h2 → h1 ##ₘ h2 →
  (vprec v = rprec r → vsize v = ncols r → 0 ≤ row ≤ nrows r →
   runs_to (osl_relation_insert_vector_m a pv row) (h1 ∪ h2) (λ _, m_part a (with_rows r (ncols r) (insert_at row [vv v] (rows r))) n ⋆ exactly h2)) ∧
  (vprec v ≠ rprec r ∨ vsize v ≠ ncols r ∨ nrows r < row ∨ row < -1 → stops (osl_relation_insert_vector_m a pv row) (h1 ∪ h2)).
Proof.
  intros h1 h2 a r n pv v row Hc W Wv H1 H2 Hd. destruct (C54_vector_edits cfg al h1 h2 a r n pv v row H1 H2 Hd) as (_ & A & _). split.
  - intros E1 E2 Hr. apply (agrees_ok _ _ _ _ _ A). by apply (C12_insert_row cfg r r v row).
  - intros E. apply (agrees_err _ _ _ _ A). destruct (C12_row_edits_checked cfg r r v row row Hc W W Wv) as (_ & F & _). by apply F.
Qed.
Theorem C54_insert_constraints : ∀ h1 h2 a r n a2 r2 n2 row, config_ok cfg → wf_rel cfg r → wf_rel cfg r2 → m_part a r n h1 → m_part a2 r2 n2 h2 → h1 ##ₘ h2 →
  (rprec r2 = rprec r → ncols r2 = ncols r → 0 ≤ row ≤ nrows r →
   runs_to (osl_relation_insert_constraints_m a a2 row) (h1 ∪ h2) (λ _, m_part a (with_rows r (ncols r) (insert_at row (rows r2) (rows r))) n ⋆ exactly h2)) ∧
  (rprec r2 ≠ rprec r ∨ ncols r2 ≠ ncols r ∨ nrows r < row ∨ row < -1 → stops (osl_relation_insert_constraints_m a a2 row) (h1 ∪ h2)).
Proof.
  intros h1 h2 a r n a2 r2 n2 row Hc W W2 H1 H2 Hd. destruct (C54_relation_edits cfg al h1 h2 a r n a2 r2 n2 row H1 H2 Hd) as (_ & A & _). split.
  - intros E1 E2 Hr. apply (agrees_ok _ _ _ _ _ A). pose proof (insert_constraints_ok r r2 row W W2) as E. cbv zeta in E. replace (row =? -1) with false in E by lia. by apply E.
  - intros E. apply (agrees_err _ _ _ _ A). apply insert_constraints_err. destruct (Z.eqb_spec row (-1)); lia.
Qed.
(** A relation doubled by inserting it into itself, at the end. *)
Theorem C54_doubled : ∀ h a r n, config_ok cfg → wf_rel cfg r → m_part a r n h →
  runs_to (osl_relation_insert_constraints_m a a (nrows r)) h (λ _, m_part a (with_rows r (ncols r) (rows r ++ rows r)) n).
Proof.
  intros h a r n Hc W H. destruct (C54_self_insert cfg al h a r n (nrows r) H) as (A & _). apply (agrees_ok _ _ _ _ _ A).
  pose proof (wf_nn r W) as Hn. pose proof (insert_constraints_ok r r (nrows r) W W) as E. cbv zeta in E. replace (nrows r =? -1) with false in E by lia.
  rewrite E; [|done|done|lia]. do 2 f_equal. unfold insert_at. pose proof (rows_length r W) as L. unfold zlength in L. rewrite firstn_all2; [|lia]. rewrite skipn_all2; [|lia]. by rewrite app_nil_r.
Qed.
Theorem C54_clone : ∀ h a l, config_ok cfg → wf_union cfg l → within h (m_relation a l) →
  runs_to (osl_relation_clone_m a) h (λ q, exactly h ⋆ m_relation q l).
Proof.
  intros h a l Hc W S. destruct (C54_copies cfg al h a l 0 S) as (A & _). apply (agrees_ok _ _ _ _ _ A). by apply (C10_clone_equal cfg l).
Qed.
End V.
Print Assumptions C54_remove_row.
Print Assumptions C54_insert_blank_row.
Print Assumptions C54_columns.
Print Assumptions C54_insert_vector.
Print Assumptions C54_insert_constraints.
Print Assumptions C54_doubled.
Print Assumptions C54_clone.

(** ** One coefficient *)
Section I.
Context (cfg : config) (al : Allocator obj).
Theorem C54_int_malloc : ∀ p,
  (supported cfg p → runs_to (osl_int_malloc_m p) ∅ (λ a, m_array p a [0])) ∧ (¬ supported cfg p → stops (osl_int_malloc_m p) ∅).
Proof.
  intros p. split; intros Hp.
  - apply supported_iff in Hp. apply (runs_intro emp (λ a, M (m_array p a [0])))%I; [|done|by intros]. iIntros "_". unfold osl_int_malloc_m, new_cells. iApply wp_bind. iApply wp_malloc. iIntros (a) "A". iApply wp_bind.
    iApply (wp_init_set_si p a [None]); [done|cbn; lia|]. iFrame "A". iIntros (c) "A C". iApply wp_ret. iExists [c]. rewrite M_beside M_cell. cbn [List.map m_coefs]. rewrite M_beside M_nothing. by iFrame.
  - apply (stops_intro emp)%I; [|done]. unfold osl_int_malloc_m, new_cells. iIntros "_". iApply wpe_bind. iApply wp_malloc. iIntros (a) "A". iApply wpe_bind_l. iStopProof. apply wpe_init_set_si. rewrite supported_iff in Hp. by destruct (osl_int_is_precision_supported p).
Qed.
Theorem C54_int_free : ∀ h p a z, m_array p a [z] h → runs_to (osl_int_free_m p a) h (λ _ h', h' = ∅).
Proof.
  intros h p a z H. apply (runs_intro (M (m_array p a [z])) (λ _, emp)%I); [|exact H|done]. iIntros "A". iDestruct "A" as (cs) "[A C]". rewrite M_cell.
  destruct cs as [|c [|? ?]]; cbn [m_coefs]; [by iDestruct "C" as "%F"| |iDestruct "C" as "[C F]"; by iDestruct "F" as "%F"]. iDestruct "C" as "[C %T]".
  unfold osl_int_free_m. iApply wp_bind. iApply (wp_clear_at p a (List.map Some [c])); [done|done|]. iFrame "A C". iIntros (c') "A". iApply wp_free. by iFrame.
Qed.
End I.
Print Assumptions C54_int_malloc.
Print Assumptions C54_int_free.

(** ** Every well-formed relation and vector can be held, beside anything else *)
Section E.
Context (cfg : config) (al : Allocator obj).
Lemma avail_coef p z : supported cfg p → avail (∃ c, M (m_coef p c z))%I.
Proof.
  intros Hp%supported_iff. unfold m_coef. destruct (Z.eqb p PRECISION_MP).
  - eapply avail_mono; [|exact (avail_block (λ d, BMpz d) (λ d, d ↦ CBlock (BLimbs z))%I (avail_cell (BLimbs z)))]. iIntros "(%q & %d & Q & D)". iExists (Mp q). rewrite M_beside M_nothing. iSplitR; [done|].
    iExists (q, d). rewrite !M_beside !M_cell M_nothing. by iFrame.
  - eapply avail_mono; [|exact avail_emp]. iIntros "_". iExists (Num p z). rewrite M_beside !M_nothing. done.
Qed.
Lemma avail_array p l : supported cfg p → avail (∃ b, M (m_array p b l))%I.
Proof.
  intros Hp. assert (avail (∃ cs, M (m_coefs p cs l)))%I as Hc.
  { induction l as [|z l IH].
    - eapply avail_mono; [|exact avail_emp]. iIntros "_". iExists []. cbn [m_coefs]. by rewrite M_nothing.
    - eapply avail_mono; [|exact (avail_pair _ _ (avail_coef p z Hp) IH)]. iIntros "[%x [C R]]". iExists (x.1 :: x.2). cbn [m_coefs]. rewrite M_beside. iFrame. }
  eapply avail_mono; [|exact (avail_block (λ cs, BCells (List.map Some cs)) _ Hc)]. iIntros "(%b & %cs & B & C)". iExists b, cs. rewrite M_beside M_cell. iFrame.
Qed.
Lemma avail_part r n : wf_rel cfg r → avail (∃ a, M (m_part a r n))%I.
Proof.
  intros (Hp & Hr & Hc & H0 & H1 & _). assert (avail (∃ m, M (m_matrix (rprec r) m (nrows r) (ncols r) (rm r))))%I as Hm.
  { unfold m_matrix. destruct (_ || _) eqn:Ez.
    - eapply avail_mono; [|exact avail_emp]. iIntros "_". iExists NULL. rewrite M_nothing. iPureIntro. split; [done|]. apply H0. lia.
    - eapply avail_mono; [|exact (avail_block (λ q, BRows (row_starts q (nrows r) (ncols r))) _ (avail_array (rprec r) (concat (rm r)) Hp))].
      iIntros "(%m & %q & A & B)". iExists m, q. rewrite !M_beside M_cell M_nothing. iFrame. iPureIntro. apply H1; lia. }
  eapply avail_mono; [|exact (avail_block (λ m, BRel (bare r) m n) _ Hm)]. iIntros "(%a & %m & A & B)". iExists a. rewrite M_part. iExists m. by iFrame.
Qed.
Lemma avail_relation l : wf_union cfg l → avail (∃ a, M (m_relation a l))%I.
Proof.
  induction 1 as [|r l Hr Hl IH].
  - eapply avail_mono; [|exact avail_emp]. iIntros "_". iExists NULL. by rewrite M_relation_nil.
  - intros hf. destruct (IH hf) as (h2 & Hd2 & n & H2). destruct (avail_part r n Hr (h2 ∪ hf)) as (h1 & Hd1 & a & H1).
    exists (h1 ∪ h2). split; [solve_map_disjoint|]. exists a, n, h1, h2. split_and!; [done|solve_map_disjoint|exact H1|exact H2].
Qed.
Theorem C54_values_exist : ∀ l v hf, wf_union cfg l → wf_vec cfg v →
  ∃ h a pv, h ##ₘ hf ∧ (m_relation a l ⋆ m_vector pv v) h.
Proof.
  intros l v hf Wl (Hp & Hl & _). assert (avail (∃ pv, M (m_vector pv v)))%I as Hv.
  { destruct (Z.eqb_spec (vsize v) 0) as [E|E].
    - eapply avail_mono; [|exact (avail_cell (BVector (vsize v) (vprec v) NULL))]. iIntros "[%a A]". iExists a. rewrite M_vector. iExists NULL. unfold vec_at. rewrite E. iFrame. iSplit; [|done]. iPureIntro. by rewrite -E.
    - eapply avail_mono; [|exact (avail_block (λ b, BVector (vsize v) (vprec v) b) _ (avail_array (vprec v) (vv v) Hp))]. iIntros "(%a & %b & A & B)". iExists a. rewrite M_vector. iExists b. unfold vec_at.
      replace (Z.eqb (vsize v) 0) with false by lia. iFrame. done. }
  destruct (avail_sep _ _ (avail_relation l Wl) Hv hf) as (h & Hd & h1 & h2 & -> & Hd' & (a & H1) & (pv & H2)).
  exists (h1 ∪ h2), a, pv. split; [done|]. exists h1, h2. split_and!; [done|done|exact H1|exact H2].
Qed.
End E.
Print Assumptions C54_values_exist.

(** ** Not for parts in different precisions

    osl_relation_extend_output takes the precision of the first part for all of them (source/relation.c:2830): the
    coefficients of the other parts are read as what they are not. *)
Definition mixed_parts : list relation :=
  [mkrel TYPE_DOMAIN PRECISION_DP 0 2 0 0 0 0 []; mkrel TYPE_DOMAIN PRECISION_MP 1 2 0 0 0 0 [[1; 5]]].
Definition mixed_memory : heap obj :=
  {[1 := CBlock (BRel (bare (mkrel TYPE_DOMAIN PRECISION_DP 0 2 0 0 0 0 [])) NULL 2)]} ∪
  ({[2 := CBlock (BRel (bare (mkrel TYPE_DOMAIN PRECISION_MP 1 2 0 0 0 0 [[1; 5]])) 3 NULL)]} ∪
   ({[3 := CBlock (BRows [Some (4, 0)])]} ∪ ({[4 := CBlock (BCells [Some (Mp 5); Some (Mp 7)])]} ∪
    (({[5 := CBlock (BMpz 6)]} ∪ {[6 := CBlock (BLimbs 1)]}) ∪ ({[7 := CBlock (BMpz 8)]} ∪ {[8 := CBlock (BLimbs 5)]}))))).
Lemma beside_at (P Q : mem) h1 h2 : P h1 → Q h2 → h1 ##ₘ h2 → (P ⋆ Q) (h1 ∪ h2).
Proof. intros. by exists h1, h2. Qed.
Lemma beside_pure (φ : Prop) (Q : mem) h : φ → Q h → (nothing φ ⋆ Q) h.
Proof. intros. exists ∅, h. split_and!; [by rewrite left_id_L|apply map_disjoint_empty_l|done|done]. Qed.
Lemma beside_end (φ : Prop) (P : mem) h : P h → φ → (P ⋆ nothing φ) h.
Proof. intros. exists h, ∅. split_and!; [by rewrite right_id_L|apply map_disjoint_empty_r|done|done]. Qed.
Theorem C54_extend_output_refuted :
  wf_union lp64_debug mixed_parts ∧ @m_relation lp64_debug 1 mixed_parts mixed_memory ∧
  @osl_relation_extend_output_m lp64_debug (bump_allocator obj) 1 0 mixed_memory = UB.
Proof.
  split; [|split].
  - unfold wf_union, mixed_parts. apply List.Forall_cons; [|apply List.Forall_cons; [|apply List.Forall_nil]]; unfold wf_rel, PRECISION_DP, PRECISION_MP; cbn [rtype rprec nrows ncols rm]; LoopLemmas.wf_lit.
  - exists 2. apply beside_at; [| |solve_map_disjoint].
    + exists NULL. eexists _, ∅. split_and!; [by rewrite right_id_L|apply map_disjoint_empty_r|done|apply beside_pure; [cbn; lia|done]].
    + exists NULL. apply (beside_end _ (m_part _ _ _)); [|done]. exists 3. apply beside_at; [done| |solve_map_disjoint]. apply beside_pure; [cbn; lia|]. exists 4. apply beside_at; [done| |solve_map_disjoint].
      apply beside_end; [|split; [done|by repeat constructor]]. exists [Mp 5; Mp 7]. apply beside_at; [done| |solve_map_disjoint].
      apply beside_at; [| |solve_map_disjoint].
      * apply beside_pure; [done|]. exists (5, 6). apply beside_pure; [done|]. apply beside_at; [done|done|solve_map_disjoint].
      * apply (beside_end _ (m_coef _ _ _)); [|done]. apply beside_pure; [done|]. exists (7, 8). apply beside_pure; [done|]. apply beside_at; [done|done|solve_map_disjoint].
  - vm_compute. reflexivity.
Qed.
Print Assumptions C54_extend_output_refuted.

(** ** Not vacuous *)
Definition gmp_relation : relation := mkrel TYPE_DOMAIN PRECISION_MP 2 4 1 0 0 1 [[1; 1; 0; 0]; [1; -1; 1; 123456789012345678901234567890]].
Definition dp_relation : relation := mkrel TYPE_DOMAIN PRECISION_DP 2 4 1 0 0 1 [[1; 1; 0; 0]; [1; -1; 1; 7]].
Example C54_witness : ∃ h a n, wf_rel lp64_debug gmp_relation ∧ @m_part lp64_debug a gmp_relation n h ∧ 0 ≤ 1 < nrows gmp_relation.
Proof.
  assert (wf_rel lp64_debug gmp_relation) as W by (unfold wf_rel, gmp_relation, PRECISION_MP; cbn [gmp_relation rtype rprec nrows ncols rm]; LoopLemmas.wf_lit).
  destruct (avail_part lp64_debug gmp_relation NULL W ∅) as (h & _ & a & H). exists h, a, NULL. split_and!; [done|exact H|cbn; lia|cbn; lia].
Qed.
(** A relation built, edited in place and released: nothing is left, whether its numbers are machine words or GMP numbers. *)
Definition exercise (p : Z) : oprog unit :=
  relation <== @osl_relation_pmalloc_m lp64_debug (bump_allocator obj) p 2 3 ;;
  vector <== @osl_vector_pmalloc_m lp64_debug (bump_allocator obj) p 3 ;;
  @osl_vector_tag_inequality_m lp64_debug vector ;;==
  @osl_relation_insert_vector_m lp64_debug (bump_allocator obj) relation vector 1 ;;==
  @osl_relation_insert_blank_column_m lp64_debug (bump_allocator obj) relation 2 ;;==
  @osl_relation_remove_row_m lp64_debug (bump_allocator obj) relation 0 ;;==
  copy <== @osl_relation_clone_m lp64_debug (bump_allocator obj) relation ;;
  @osl_relation_insert_constraints_m lp64_debug (bump_allocator obj) relation relation 1 ;;==
  @osl_relation_set_precision_m lp64_debug (bump_allocator obj) PRECISION_MP copy ;;==
  @osl_vector_free_m lp64_debug vector ;;== @osl_relation_free_m lp64_debug relation ;;== @osl_relation_free_m lp64_debug copy.
Example C54_exercise_dp : match exercise PRECISION_DP ∅ with Ok (_, h) => map_to_list h = [] | _ => False end.
Proof. vm_compute. reflexivity. Qed.
Example C54_exercise_mp : match exercise PRECISION_MP ∅ with Ok (_, h) => map_to_list h = [] | _ => False end.
Proof. vm_compute. reflexivity. Qed.
