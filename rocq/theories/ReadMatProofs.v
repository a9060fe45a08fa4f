(** * ReadMatProofs: reading relations with their matrices *)
From stdpp Require Import gmap.
From iris.proofmode Require Import tactics.
From Coq Require Import ZifyBool ZifyNat.
From Verif Require RelTextProofs.
From Verif Require Import Base Spec IntModel VectorModel RelationModel RelSpec LoopLemmas UtilModel StringsModel RelTextModel ExtModel HeapModel HeapObjects HeapSpec HeapLogic HeapProofs PayloadModel PayloadSpec PayloadProofs PayloadProofs2 PayloadProofs3 MatModel MatSpec MatProofs MatProofs2 MatProofs3 MatProofs4 MatProofs5 MatProofs6 ScopModel FullModel FullSpec FullProofs ReadHeapModel ReadHeapSpec ReadHeapProofs ReadHeapProofs2 ReadHeapProofs3 SaveHeapSpec SaveHeapModel ReadMatModel.
Local Open Scope string_scope.
Local Open Scope list_scope.
Local Open Scope Z_scope.
Local Open Scope bi_scope.

Section READ.
Context {cfg : config} {al : Allocator obj}.

(** ** Cells and rows *)
Lemma sim_read_cell p md R C i j m c sc :
  M (m_matrix p md R C m) ⊢
  sim (old <- mget m i j ;; '(v, c, sc) <- read_cell p c sc old ;; m <- mset m i j v ;; Ok (m, c, sc)) (read_cell_m p md i j c sc)
    (λ t s, M (m_matrix p md R C (fst (fst t))) ∗ <affine> ⌜(snd (fst t), snd t) = s⌝).
Proof.
  destruct (mget m i j) as [x| | |] eqn:E0; cbn [bind]; [|by destruct (mget_not_err m i j)|by iIntros "_"..].
  iIntros "D". unfold m_matrix at 1. destruct (_ || _) eqn:Ez.
  { iDestruct "D" as "%F". destruct F as [_ ->]. unfold mget, aget in E0. destruct (i <? 0); [done|]. by destruct (Z.to_nat i). }
  iDestruct "D" as (q) "(A & B & %Sd)". rewrite M_cell. destruct (mget_inv _ _ _ _ _ _ Sd E0) as (Hi' & Hj' & Exx).
  unfold read_cell_m. iApply sim_heap. iApply wp_entry; [done|]. iFrame "A". iIntros "A". iApply sim_heap. iApply wp_number; [nia|done|]. iFrame "B". iIntros "B".
  iApply sim_read. iIntros ([[v c'] sc']) "_".
  destruct (mset m i j v) as [m'| | |] eqn:E2; cbn [bind]; [|by destruct (mset_not_err m i j v)|by iStopProof; iIntros "_"..].
  destruct (mset_inv _ _ _ _ _ _ _ Sd E2) as (_ & _ & Ec & Sd').
  iApply sim_heap. iApply (wp_renumber p q (concat m)); [rewrite (concat_length _ _ _ Sd); nia|]. iFrame "B". iIntros "B". rewrite -Ec. iApply sim_ret. cbn [fst snd].
  iSplitL; [|done]. unfold m_matrix. rewrite Ez. iExists q. rewrite !M_beside M_cell M_nothing. by iFrame.
Qed.
Lemma sim_row_fill_m p md R C i m c sc Q :
  M (m_matrix p md R C m) ∗ (∀ m' c' sc', M (m_matrix p md R C m') -∗ Q (m', c', sc') (c', sc')) ⊢
  sim (read_cells p i C m c sc) (row_fill_m p md i C c sc) Q.
Proof.
  iIntros "[D K]". unfold read_cells, row_fill_m, cfor. rewrite Z.sub_0_r.
  iApply (sim_hfor (λ t s, M (m_matrix p md R C (fst (fst t))) ∗ <affine> ⌜(snd (fst t), snd t) = s⌝)).
  - intros j [[m0 c0] sc0] s _. cbn [fst snd]. iIntros "[A %E]". subst s. destruct (match c0 with [] => false | _ => _ end); [iStopProof; apply sim_err|].
    by iApply sim_read_cell.
  - cbn [fst snd]. iFrame "D". iSplitR; [done|]. iIntros ([[m' c'] sc'] s) "[A %E]". subst s. cbn [fst snd]. by iApply "K".
Qed.
Lemma sim_rows_fill_fm q r n f sc Q :
  M (m_part q r n) ∗ (∀ r' f' sc', M (m_part q r' n) -∗ Q (r', f', sc') (f', sc')) ⊢
  sim (read_rows_f (rprec r) r f sc) (rows_fill_fm (rprec r) q f sc) Q.
Proof.
  iIntros "[P K]". rewrite M_part. iDestruct "P" as (a) "(P & %Hd & A)". unfold read_rows_f, rows_fill_fm. iApply sim_heap. iApply wp_get_part. iFrame "P". iIntros "P".
  iApply sim_tail. unfold cfor. rewrite Z.sub_0_r. change (nrows (bare r)) with (nrows r). change (ncols (bare r)) with (ncols r).
  iApply (sim_hfor (λ t s, M (m_matrix (rprec r) a (nrows r) (ncols r) (fst (fst t))) ∗ <affine> ⌜(snd (fst t), snd t) = s⌝)).
  - intros j [[m f0] sc0] s Hj. cbn [fst snd]. iIntros "[A %E]". subst s. iApply sim_read. iIntros ([[c|] f1]) "_"; [|iStopProof; apply sim_err].
    iApply sim_bind. iApply sim_row_fill_m. iFrame "A". iIntros (m' c' sc') "A". iApply sim_ret. cbn. by iFrame.
  - cbn [fst snd]. iFrame "A". iSplitR; [done|]. iIntros ([[m f0] sc0] s) "[A %E]". subst s. cbn [fst snd]. iApply sim_ret. iApply "K". rewrite M_part. iExists a.
    change (nrows (with_m r (nrows r) (ncols r) m)) with (nrows r). change (ncols (with_m r (nrows r) (ncols r) m)) with (ncols r). by iFrame.
Qed.
Lemma sim_rows_fill_m q r n f sc Q :
  M (m_part q r n) ∗ (∀ r' f' sc', M (m_part q r' n) -∗ Q (r', f', sc') (f', sc')) ⊢
  sim (read_rows_s (rprec r) r f sc) (rows_fill_m (rprec r) q f sc) Q.
Proof.
  iIntros "[P K]". rewrite M_part. iDestruct "P" as (a) "(P & %Hd & A)". unfold read_rows_s, rows_fill_m. iApply sim_heap. iApply wp_get_part. iFrame "P". iIntros "P".
  iApply sim_tail. unfold cfor. rewrite Z.sub_0_r. change (nrows (bare r)) with (nrows r). change (ncols (bare r)) with (ncols r).
  iApply (sim_hfor (λ t s, M (m_matrix (rprec r) a (nrows r) (ncols r) (fst (fst t))) ∗ <affine> ⌜(snd (fst t), snd t) = s⌝)).
  - intros j [[m f0] sc0] s Hj. cbn [fst snd]. iIntros "[A %E]". subst s. iApply sim_read. iIntros (c) "_".
    iApply sim_row_fill_m. iFrame "A". iIntros (m' c' sc') "A". cbn. by iFrame.
  - cbn [fst snd]. iFrame "A". iSplitR; [done|]. iIntros ([[m f0] sc0] s) "[A %E]". subst s. cbn [fst snd]. iApply sim_ret. iApply "K". rewrite M_part. iExists a.
    change (nrows (with_m r (nrows r) (ncols r) m)) with (nrows r). change (ncols (with_m r (nrows r) (ncols r) m)) with (ncols r). by iFrame.
Qed.

(** ** Parts *)
Lemma sim_new_part p type d (Q : relation → ptr → oprop) : (∀ r q, <affine> ⌜rprec r = p⌝ -∗ M (m_part q r NULL) -∗ Q r q) ⊢ sim (new_part p type d) (new_part_m p type d) Q.
Proof.
  iIntros "K". unfold new_part, new_part_m. destruct d as [|nr [|nc [|o [|i [|l [|pa [|]]]]]]]; try (iStopProof; apply sim_UB).
  iApply sim_bind. iApply sim_new. iIntros (a m mat) "%H P A". iApply sim_heap. iApply wp_get_part. iFrame "P". iIntros "P".
  iApply sim_heap. iApply wp_put. iFrame "P". iIntros "P". iApply sim_ret. iApply "K"; [done|]. rewrite M_part. iExists m. iFrame "P". iSplitR; [done|]. iFrame.
Qed.
Lemma wp_set_part_next q r n n' (Q : _ → oprop) : M (m_part q r n) ∗ (M (m_part q r n') -∗ Q tt) ⊢ wp (set_part_next q n') Q.
Proof.
  rewrite M_part. iIntros "[P K]". iDestruct "P" as (a) "(P & H & A)". unfold set_part_next. iApply wp_bind. iApply wp_get_part. iFrame "P". iIntros "P".
  iApply wp_put. iFrame "P". iIntros "P". iApply "K". rewrite M_part. iExists a. iFrame.
Qed.
Lemma sim_parts_rest_fm p type k : ∀ d un prev rp f sc Q,
  M (m_part prev rp NULL) ∗ (∀ u f', M (m_relation prev (rp :: u)) -∗ Q (u, f') (un, f')) ⊢
  sim (read_parts_f p type k d f sc) (read_parts_fm p type k d false un prev f sc) Q.
Proof.
  induction k as [|k IH]; intros d un prev rp f sc Q; cbn [read_parts_f read_parts_fm]; iIntros "(P & K)";
    iApply sim_bind; iApply sim_new_part; iIntros (r q) "%Hr R";
    iApply sim_bind; (iEval (rewrite -Hr)); iApply sim_rows_fill_fm; iFrame "R"; iIntros (r' f' sc') "R"; iApply sim_heap; iApply wp_set_part_next; iFrame "P"; iIntros "P".
  - iApply sim_ret. iApply "K". rewrite M_relation_cons. iExists q. iFrame "P". by iApply M_relation_one.
  - iApply sim_read. iIntros ([d' f1]) "_". iApply sim_tail. rewrite Hr. iApply IH. iFrame "R". iIntros (u f2) "U". iApply sim_ret. iApply "K". rewrite (M_relation_cons prev). iExists q. iFrame.
Qed.
Lemma sim_parts_fm p type k d f sc Q : (∀ q u f', M (m_relation q u) -∗ Q (u, f') (q, f')) ⊢ sim (read_parts_f p type k d f sc) (read_parts_fm p type k d true NULL NULL f sc) Q.
Proof.
  iIntros "K". destruct k as [|k]; cbn [read_parts_f read_parts_fm];
    iApply sim_bind; iApply sim_new_part; iIntros (r q) "%Hr R";
    iApply sim_bind; (iEval (rewrite -Hr)); iApply sim_rows_fill_fm; iFrame "R"; iIntros (r' f' sc') "R"; iApply sim_heap; iApply wp_ret.
  - iApply sim_ret. iApply "K". by iApply M_relation_one.
  - iApply sim_read. iIntros ([d' f1]) "_". iApply sim_tail. rewrite Hr. iApply sim_parts_rest_fm. iFrame "R". iIntros (u f2) "U". iApply sim_ret. by iApply "K".
Qed.
Lemma sim_relation_pread_m f p Q : (∀ q u f', <affine> ⌜osl_relation_pread f p = Ok (u, f')⌝ -∗ M (m_relation q u) -∗ Q (u, f') (q, f')) ⊢ sim (osl_relation_pread f p) (osl_relation_pread_m f p) Q.
Proof.
  iIntros "K". iApply sim_eq. unfold osl_relation_pread at 1. unfold osl_relation_pread_m. iApply sim_bind. iApply sim_read_type_f. iIntros (t f1).
  iApply sim_read. iIntros ([[n d] f2]) "_". iApply sim_parts_fm. iIntros (q u f') "U E". by iApply ("K" with "E").
Qed.
Lemma sim_parts_rest_m p k : ∀ d un prev rp f sc Q,
  M (m_part prev rp NULL) ∗ (∀ u f', M (m_relation prev (rp :: u)) -∗ Q (u, f') (un, f')) ⊢
  sim (read_parts_s p k d f sc) (read_parts_m p k d false un prev f sc) Q.
Proof.
  induction k as [|k IH]; intros d un prev rp f sc Q; cbn [read_parts_s read_parts_m]; iIntros "(P & K)";
    iApply sim_bind; iApply sim_new_part; iIntros (r q) "%Hr R";
    iApply sim_bind; (iEval (rewrite -Hr)); iApply sim_rows_fill_m; iFrame "R"; iIntros (r' f' sc') "R"; iApply sim_heap; iApply wp_set_part_next; iFrame "P"; iIntros "P".
  - iApply sim_ret. iApply "K". rewrite M_relation_cons. iExists q. iFrame "P". by iApply M_relation_one.
  - iApply sim_read. iIntros ([[d' f1] sc1]) "_". iApply sim_tail. rewrite Hr. iApply IH. iFrame "R". iIntros (u f2) "U". iApply sim_ret. iApply "K". rewrite (M_relation_cons prev). iExists q. iFrame.
Qed.
Lemma sim_parts_m p k d f sc Q : (∀ q u f', M (m_relation q u) -∗ Q (u, f') (q, f')) ⊢ sim (read_parts_s p k d f sc) (read_parts_m p k d true NULL NULL f sc) Q.
Proof.
  iIntros "K". destruct k as [|k]; cbn [read_parts_s read_parts_m];
    iApply sim_bind; iApply sim_new_part; iIntros (r q) "%Hr R";
    iApply sim_bind; (iEval (rewrite -Hr)); iApply sim_rows_fill_m; iFrame "R"; iIntros (r' f' sc') "R"; iApply sim_heap; iApply wp_ret.
  - iApply sim_ret. iApply "K". by iApply M_relation_one.
  - iApply sim_read. iIntros ([[d' f1] sc1]) "_". iApply sim_tail. rewrite Hr. iApply sim_parts_rest_m. iFrame "R". iIntros (u f2) "U". iApply sim_ret. by iApply "K".
Qed.
Lemma sim_psread_polylib_m s p Q : (∀ q u s', M (m_relation q u) -∗ Q (u, s') (q, s')) ⊢ sim (osl_relation_psread_polylib s p) (osl_relation_psread_polylib_m s p) Q.
Proof.
  iIntros "K". unfold osl_relation_psread_polylib, osl_relation_psread_polylib_m. iApply sim_read. iIntros ([[[n d] s1] sc]) "_". by iApply sim_parts_m.
Qed.
Lemma sim_psread_m s p Q : (∀ q u s', M (m_relation q u) -∗ Q (u, s') (q, s')) ⊢ sim (osl_relation_psread s p) (osl_relation_psread_m s p) Q.
Proof.
  iIntros "K". unfold osl_relation_psread, osl_relation_psread_m. iApply sim_bind. iApply sim_read_type. iIntros (t [s1|]); [|iStopProof; apply sim_UB].
  iApply sim_bind. iApply sim_psread_polylib_m. iIntros (q u s2) "U". destruct u as [|r u]; [iStopProof; apply sim_UB|]. rewrite M_relation_cons.
  iDestruct "U" as (n) "(P & U)". rewrite M_part. iDestruct "P" as (m) "(P & %Hd & A)". iApply sim_heap. iApply wp_get_part. iFrame "P". iIntros "P". iApply sim_heap. iApply wp_put. iFrame "P". iIntros "P".
  iApply sim_ret. iApply "K". rewrite M_relation_cons. iExists n. iFrame "U". rewrite M_part. iExists m. destruct r. cbn. by iFrame.
Qed.
End READ.
