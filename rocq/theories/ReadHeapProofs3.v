(** * ReadHeapProofs3: the readers in memory, relations and dependences *)
From stdpp Require Import gmap.
From iris.proofmode Require Import tactics.
From Coq Require Import ZifyBool ZifyNat.
From Verif Require Import Base IntModel VectorModel RelationModel UtilModel StringsModel RelTextModel ExtModel HeapModel HeapObjects HeapSpec HeapLogic HeapProofs PayloadModel PayloadSpec PayloadProofs PayloadProofs2 PayloadProofs3 PayloadProofs4 PayloadProofs5 PayloadProofs6 MatProofs MatProofs4 IrregHeapProofs ScopModel FullModel ReadHeapModel ReadHeapProofs ReadHeapProofs2.
Local Open Scope string_scope.
Local Open Scope list_scope.
Local Open Scope Z_scope.
Local Open Scope bi_scope.

Section READ.
Context {cfg : config} {al : Allocator obj}.

Lemma sim_type_of_strings p o Q : M (m_strings p o) ∗ (∀ t, Q t t) ⊢ sim (type_of_strings o) (type_of_strings_h p) Q.
Proof.
  iIntros "[P K]". unfold type_of_strings_h. iApply sim_heap. iApply wp_strings_size. iFrame "P". iIntros "P".
  destruct o as [[[|t l]|]|]; cbn [count List.length Nat.eqb type_of_strings]; try (iStopProof; apply sim_err).
  cbn [m_strings]. rewrite M_somewhere. iDestruct "P" as ([a ps]) "P". rewrite !M_beside !M_cell. iDestruct "P" as "(P & A & S)".
  destruct ps as [|x ps]. { cbn [List.map m_strs]. rewrite M_nothing. by iDestruct "S" as %?. }
  cbn [List.map m_strs m_str]. rewrite M_beside M_cell. iDestruct "S" as "[X S]".
  iApply sim_heap. iApply wp_get_strings. iFrame "P". iIntros "P". iApply sim_heap. iApply (wp_ptr_at a (List.map Some ((x :: ps) ++ [NULL])) 0 x); [done|]. iFrame "A". iIntros "A".
  iApply sim_heap. iApply wp_get_str. iFrame "X". iIntros "X". iApply sim_step. iIntros (ty) "_". iApply wp_bind. iApply (wp_strings_free p (Some (Some (t :: l)))).
  iSplitR "K"; [|iApply wp_ret; by iApply "K"]. cbn [m_strings]. rewrite M_somewhere. iExists (a, x :: ps). cbn [List.map m_strs m_str]. rewrite !M_beside !M_cell. iFrame.
Qed.
Lemma sim_read_type_f f Q : (∀ t f', Q (t, f') (t, f')) ⊢ sim (osl_relation_read_type_f f) (osl_relation_read_type_fh f) Q.
Proof.
  iIntros "K". unfold osl_relation_read_type_f, osl_relation_read_type_fh. iApply sim_bind. iApply sim_strings_read. iIntros (p o f') "P".
  iApply sim_bind. iApply sim_type_of_strings. iFrame "P". iIntros (t). iApply sim_ret. iApply "K".
Qed.
Lemma sim_read_type s Q : (∀ t s', Q (t, s') (t, s')) ⊢ sim (osl_relation_read_type_s s) (osl_relation_read_type_h s) Q.
Proof.
  iIntros "K". unfold osl_relation_read_type_s, osl_relation_read_type_h. iApply sim_bind. iApply sim_strings_sread. iIntros (p o f') "P".
  iApply sim_bind. iApply sim_type_of_strings. iFrame "P". iIntros (t). iApply sim_ret. iApply "K".
Qed.

(** ** Rows *)
Lemma sim_row_fill a p i r m c sc Q : (0 < nrows r)%Z →
  mat_at a (with_m r (nrows r) (ncols r) m) ∗ (∀ m' c' sc', mat_at a (with_m r (nrows r) (ncols r) m') -∗ Q (m', c', sc') (c', sc')) ⊢
  sim (read_cells p i (ncols r) m c sc) (row_fill_h a p i (ncols r) c sc) Q.
Proof.
  iIntros (Hr) "[A K]". unfold row_fill_h, mat_at. cbn [nrows ncols rm with_m]. destruct (Z.eqb_spec (nrows r) 0) as [E|E]; [lia|]. cbn [orb].
  destruct (Z.eqb_spec (ncols r) 0) as [E'|E'].
  - iDestruct "A" as %[-> ->]. rewrite isnull_null E'. iApply sim_heap. iApply wp_ret. iApply sim_step. iIntros ([[m' c'] sc']) "%E1".
    unfold read_cells, cfor in E1. change (Z.to_nat (0 - 0)) with O in E1. cbn [for_loop] in E1. assert (m' = []) by congruence. subst m'.
    iApply wp_bind. iApply wp_ret. iApply wp_ret. by iApply "K".
  - iDestruct (isnull_false with "A") as "[%En A]". rewrite En. iApply sim_heap. iApply wp_get_mat. iFrame "A". iIntros "A".
    iApply sim_step. iIntros ([[m' c'] sc']) "_". iApply wp_bind. iApply wp_store. iFrame "A". iIntros "A". iApply wp_ret. by iApply "K".
Qed.
Lemma sim_rows_fill_f p q r a n f sc Q :
  q ↦ CRel (header r) a n ∗ mat_at a r ∗ (∀ r' f' sc', q ↦ CRel (header r') a n -∗ mat_at a r' -∗ Q (r', f', sc') (f', sc')) ⊢
  sim (read_rows_f p r f sc) (rows_fill_fh p q f sc) Q.
Proof.
  iIntros "(P & A & K)". unfold read_rows_f, rows_fill_fh. iApply sim_heap. iApply wp_get_rel. iFrame "P". iIntros "P".
  iApply sim_tail. unfold cfor. rewrite Z.sub_0_r. cbn [header nrows ncols].
  iApply (sim_hfor (λ t s, mat_at a (with_m r (nrows r) (ncols r) (fst (fst t))) ∗ <affine> ⌜(snd (fst t), snd t) = s⌝)).
  - intros j [[m f0] sc0] s Hj. cbn [fst snd]. iIntros "[A %E]". subst s. iApply sim_read. iIntros ([[c|] f1]) "_"; [|iStopProof; apply sim_err].
    iApply sim_bind. iApply sim_row_fill; [lia|]. iFrame "A". iIntros (m' c' sc') "A". iApply sim_ret. cbn. by iFrame.
  - cbn [fst snd]. iSplitL "A". { iSplitL; [|done]. by destruct r. } iIntros ([[m f0] sc0] s) "[A %E]". subst s. cbn [fst snd]. iApply sim_ret. iApply ("K" with "[P] A").
    by destruct r.
Qed.
Lemma sim_rows_fill p q r a n f sc Q :
  q ↦ CRel (header r) a n ∗ mat_at a r ∗ (∀ r' f' sc', q ↦ CRel (header r') a n -∗ mat_at a r' -∗ Q (r', f', sc') (f', sc')) ⊢
  sim (read_rows_s p r f sc) (rows_fill_h p q f sc) Q.
Proof.
  iIntros "(P & A & K)". unfold read_rows_s, rows_fill_h. iApply sim_heap. iApply wp_get_rel. iFrame "P". iIntros "P".
  iApply sim_tail. unfold cfor. rewrite Z.sub_0_r. cbn [header nrows ncols].
  iApply (sim_hfor (λ t s, mat_at a (with_m r (nrows r) (ncols r) (fst (fst t))) ∗ <affine> ⌜(snd (fst t), snd t) = s⌝)).
  - intros j [[m f0] sc0] s Hj. cbn [fst snd]. iIntros "[A %E]". subst s. iApply sim_read. iIntros (c) "_".
    iApply sim_row_fill; [lia|]. iFrame "A". iIntros (m' c' sc') "A". cbn. by iFrame.
  - cbn [fst snd]. iSplitL "A". { iSplitL; [|done]. by destruct r. } iIntros ([[m f0] sc0] s) "[A %E]". subst s. cbn [fst snd]. iApply sim_ret. iApply ("K" with "[P] A").
    by destruct r.
Qed.

(** ** Parts *)
Lemma new_part_empty p type d r : new_part p type d = Ok r → nrows r = 0 ∨ ncols r = 0 → rm r = [].
Proof.
  unfold new_part. destruct d as [|nr [|nc [|o [|i [|l [|q [|]]]]]]]; try discriminate. unfold osl_relation_pmalloc.
  destruct (negb _ && _ && _); [discriminate|]. destruct (_ || _)%bool eqn:E0; [discriminate|].
  destruct ((nr =? 0) || (nc =? 0))%Z eqn:E.
  - cbn. intros H. assert (H1 : r = mkrel type p nr nc o i l q []) by congruence. by subst r.
  - destruct (cfor _ _ _ _) as [m| | |]; cbn; try discriminate. intros H. assert (H1 : r = mkrel type p nr nc o i l q m) by congruence. subst r. cbn. lia.
Qed.
Lemma sim_parts_rest_f p type k : ∀ d un prev rp mp f sc Q,
  prev ↦ CRel (header rp) mp NULL ∗ mat_at mp rp ∗ (∀ u f', runion prev (rp :: u) -∗ Q (u, f') (un, f')) ⊢
  sim (read_parts_f p type k d f sc) (read_parts_fh p type k d false un prev f sc) Q.
Proof.
  induction k as [|k IH]; intros d un prev rp mp f sc Q; cbn [read_parts_f read_parts_fh]; iIntros "(P & A & K)";
    iApply sim_read; iIntros (r) "%Hr"; iApply sim_heap; (iApply wp_new_node; [exact (new_part_empty _ _ _ _ Hr)|]); iIntros (q) "R"; cbn [runion];
    iDestruct "R" as (m n) "(R & B & %En)"; subst n;
    iApply sim_bind; iApply sim_rows_fill_f; iFrame "R B"; iIntros (r' f' sc') "R B"; iApply sim_heap; iApply wp_set_rel_next; iFrame "P"; iIntros "P".
  - iApply sim_ret. iApply "K". cbn [runion]. iExists mp, q. iFrame "P A". iExists m, NULL. by iFrame.
  - iApply sim_read. iIntros ([d' f1]) "_". iApply sim_tail. iApply IH. iFrame "R B". iIntros (u f2) "U". iApply sim_ret. iApply "K". cbn [runion]. iExists mp, q. iFrame.
Qed.
Lemma sim_parts_f p type k d f sc Q : (∀ q u f', runion q u -∗ Q (u, f') (q, f')) ⊢ sim (read_parts_f p type k d f sc) (read_parts_fh p type k d true NULL NULL f sc) Q.
Proof.
  iIntros "K". destruct k as [|k]; cbn [read_parts_f read_parts_fh];
    iApply sim_read; iIntros (r) "%Hr"; iApply sim_heap; (iApply wp_new_node; [exact (new_part_empty _ _ _ _ Hr)|]); iIntros (q) "R"; cbn [runion];
    iDestruct "R" as (m n) "(R & B & %En)"; subst n;
    iApply sim_bind; iApply sim_rows_fill_f; iFrame "R B"; iIntros (r' f' sc') "R B"; iApply sim_heap; iApply wp_ret.
  - iApply sim_ret. iApply "K". cbn [runion]. iExists m, NULL. by iFrame.
  - iApply sim_read. iIntros ([d' f1]) "_". iApply sim_tail. iApply sim_parts_rest_f. iFrame "R B". iIntros (u f2) "U". iApply sim_ret. by iApply "K".
Qed.
Lemma sim_relation_pread f p Q : (∀ q u f', <affine> ⌜osl_relation_pread f p = Ok (u, f')⌝ -∗ runion q u -∗ Q (u, f') (q, f')) ⊢ sim (osl_relation_pread f p) (osl_relation_pread_h f p) Q.
Proof.
  iIntros "K". iApply sim_eq. unfold osl_relation_pread at 1. unfold osl_relation_pread_h. iApply sim_bind. iApply sim_read_type_f. iIntros (t f1).
  iApply sim_read. iIntros ([[n d] f2]) "_". iApply sim_parts_f. iIntros (q u f') "U E". by iApply ("K" with "E").
Qed.
Lemma sim_parts_rest p k : ∀ d un prev rp mp f sc Q,
  prev ↦ CRel (header rp) mp NULL ∗ mat_at mp rp ∗ (∀ u f', runion prev (rp :: u) -∗ Q (u, f') (un, f')) ⊢
  sim (read_parts_s p k d f sc) (read_parts_h p k d false un prev f sc) Q.
Proof.
  induction k as [|k IH]; intros d un prev rp mp f sc Q; cbn [read_parts_s read_parts_h]; iIntros "(P & A & K)";
    iApply sim_read; iIntros (r) "%Hr"; iApply sim_heap; (iApply wp_new_node; [exact (new_part_empty _ _ _ _ Hr)|]); iIntros (q) "R"; cbn [runion];
    iDestruct "R" as (m n) "(R & B & %En)"; subst n;
    iApply sim_bind; iApply sim_rows_fill; iFrame "R B"; iIntros (r' f' sc') "R B"; iApply sim_heap; iApply wp_set_rel_next; iFrame "P"; iIntros "P".
  - iApply sim_ret. iApply "K". cbn [runion]. iExists mp, q. iFrame "P A". iExists m, NULL. by iFrame.
  - iApply sim_read. iIntros ([[d' f1] sc1]) "_". iApply sim_tail. iApply IH. iFrame "R B". iIntros (u f2) "U". iApply sim_ret. iApply "K". cbn [runion]. iExists mp, q. iFrame.
Qed.
Lemma sim_parts p k d f sc Q : (∀ q u f', runion q u -∗ Q (u, f') (q, f')) ⊢ sim (read_parts_s p k d f sc) (read_parts_h p k d true NULL NULL f sc) Q.
Proof.
  iIntros "K". destruct k as [|k]; cbn [read_parts_s read_parts_h];
    iApply sim_read; iIntros (r) "%Hr"; iApply sim_heap; (iApply wp_new_node; [exact (new_part_empty _ _ _ _ Hr)|]); iIntros (q) "R"; cbn [runion];
    iDestruct "R" as (m n) "(R & B & %En)"; subst n;
    iApply sim_bind; iApply sim_rows_fill; iFrame "R B"; iIntros (r' f' sc') "R B"; iApply sim_heap; iApply wp_ret.
  - iApply sim_ret. iApply "K". cbn [runion]. iExists m, NULL. by iFrame.
  - iApply sim_read. iIntros ([[d' f1] sc1]) "_". iApply sim_tail. iApply sim_parts_rest. iFrame "R B". iIntros (u f2) "U". iApply sim_ret. by iApply "K".
Qed.
Lemma sim_psread_polylib s p Q : (∀ q u s', runion q u -∗ Q (u, s') (q, s')) ⊢ sim (osl_relation_psread_polylib s p) (osl_relation_psread_polylib_h s p) Q.
Proof.
  iIntros "K". unfold osl_relation_psread_polylib, osl_relation_psread_polylib_h. iApply sim_read. iIntros ([[[n d] s1] sc]) "_". by iApply sim_parts.
Qed.
Lemma sim_psread s p Q : (∀ q u s', <affine> ⌜u ≠ []⌝ -∗ runion q u -∗ Q (u, s') (q, s')) ⊢ sim (osl_relation_psread s p) (osl_relation_psread_h s p) Q.
Proof.
  iIntros "K". unfold osl_relation_psread, osl_relation_psread_h. iApply sim_bind. iApply sim_read_type. iIntros (t [s1|]); [|iStopProof; apply sim_UB].
  iApply sim_bind. iApply sim_psread_polylib. iIntros (q u s2) "U". destruct u as [|r u]; [iStopProof; apply sim_UB|]. cbn [runion].
  iDestruct "U" as (m n) "(P & A & U)". iApply sim_heap. iApply wp_get_rel. iFrame "P". iIntros "P". iApply sim_heap. iApply wp_store. iFrame "P". iIntros "P".
  iApply sim_ret. iApply "K"; [done|]. cbn [runion]. iExists m, n. destruct r. cbn. iFrame.
Qed.

(** ** Dependences *)
Lemma sim_one_dep s p Q : (∀ q x s', M (m_dependence_one q x NULL) -∗ Q (x, s') (q, s')) ⊢ sim (osl_dependence_read_one_dep s p) (osl_dependence_read_one_dep_h s p) Q.
Proof.
  iIntros "K". unfold osl_dependence_read_one_dep, osl_dependence_read_one_dep_h. mal q "P". iApply sim_bind. iApply sim_read_string. iIntros (b t s0) "B".
  iApply sim_heap. iApply wp_get_str. iFrame "B". iIntros "B". iApply sim_heap. iApply wp_free. iFrame "B".
  rint ls s1. rint ltt s2. rint dp s3. rint rs s4. rint rt s5. iApply sim_read. iIntros (s6) "_". destruct (span _ s6) as [line s7].
  iApply sim_read. iIntros (line') "_". iApply sim_read. iIntros (dims) "_". destruct (negb _); [iStopProof; apply sim_err|].
  iApply sim_bind. iApply sim_psread. iIntros (d u s8) "_ U". sput "P". iApply sim_ret. iApply "K". unfold m_dependence_one. rewrite M_somewhere. iExists d.
  rewrite M_beside M_cell M_union. iFrame.
Qed.
Lemma sim_dependences_rest k : ∀ first last x s p Q, isnull first = false →
  M (m_dependence_one last x NULL) ∗ (∀ l s', M (m_dependences last (x :: l)) -∗ Q (l, s') (first, s')) ⊢
  sim (dependences_sread k s p) (dependences_sread_h k first last s p) Q.
Proof.
  induction k as [|k IH]; intros first last x s p Q Hf; cbn [dependences_sread dependences_sread_h]; iIntros "[X K]".
  - iApply sim_ret. iApply "K". rewrite m_dependences_cons. iExists NULL. iFrame "X". cbn [m_dependences]. by rewrite M_nothing.
  - iApply sim_bind. iApply sim_one_dep. iIntros (q y s1) "Y". rewrite Hf. iApply sim_heap. iApply wp_set_dependence_next. iFrame "X". iIntros "X".
    iApply sim_tail. iApply IH; [done|]. iFrame "Y". iIntros (l s2) "L". iApply sim_ret. iApply "K". rewrite (m_dependences_cons last). iExists q. iFrame.
Qed.
Lemma dependence_one_nonnull q x n : M (m_dependence_one q x n) ⊢ <affine> ⌜isnull q = false⌝ ∗ M (m_dependence_one q x n).
Proof.
  unfold m_dependence_one. rewrite M_somewhere. iIntros "(%d & H)". rewrite M_beside M_cell. iDestruct "H" as "[P U]".
  iDestruct (isnull_false with "P") as "[%E P]". iSplitR; [done|]. iExists d. rewrite M_beside M_cell. iFrame.
Qed.
Lemma sim_dependence_psread s p Q : (∀ q l s', M (m_dependences q l) -∗ Q (l, s') (q, s')) ⊢ sim (osl_dependence_psread s p) (osl_dependence_psread_h s p) Q.
Proof.
  iIntros "K". unfold osl_dependence_psread, osl_dependence_psread_h. rint nb s1. destruct (Z.to_nat nb) as [|k]; cbn [dependences_sread dependences_sread_h].
  - iApply sim_ret. iApply "K". cbn [m_dependences]. by rewrite M_nothing.
  - iApply sim_bind. iApply sim_one_dep. iIntros (q x s2) "X". rewrite isnull_null. iDestruct (dependence_one_nonnull with "X") as "[%E X]".
    iApply sim_tail. iApply (sim_dependences_rest k q q x); [done|]. iFrame "X". iIntros (l s3) "L". iApply sim_ret. by iApply "K".
Qed.
End READ.
