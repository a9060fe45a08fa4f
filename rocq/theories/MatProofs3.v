(** * MatProofs3: allocation and release of matrices *)
From stdpp Require Import gmap.
From iris.proofmode Require Import tactics.
From Coq Require Import ZifyBool ZifyNat.
From Verif Require Import Base IntModel VectorModel RelationModel Spec RelSpec LoopLemmas IntProofs RelationProofs HeapModel HeapObjects HeapSpec HeapLogic HeapProofs PayloadModel PayloadSpec PayloadProofs PayloadProofs2 MatModel MatSpec MatProofs MatProofs2.
Local Open Scope string_scope.
Local Open Scope list_scope.
Local Open Scope Z_scope.
Local Open Scope bi_scope.

Section MAT.
Context {cfg : config} {al : Allocator obj}.

Lemma wp_get_part a r m n (Q : _ → oprop) : a ↦ CBlock (BRel r m n) ∗ (a ↦ CBlock (BRel r m n) -∗ Q (r, m, n)) ⊢ wp (get_part a) Q.
Proof. iIntros "[H K]". iApply wp_bind. iApply wp_get_block. iFrame "H". iIntros "H". iApply wp_ret. by iApply "K". Qed.
Lemma wp_get_part_own h a r m n (Q : _ → oprop) : h !! a = Some (CBlock (BRel r m n)) → own h ∗ (own h -∗ Q (r, m, n)) ⊢ wp (get_part a) Q.
Proof. iIntros (E) "[H K]". iApply wp_bind. iApply wp_get_block_own; [done|]. iFrame "H". iIntros "H". iApply wp_ret. by iApply "K". Qed.
Lemma wp_get_vec_own h a n p v (Q : _ → oprop) : h !! a = Some (CBlock (BVector n p v)) → own h ∗ (own h -∗ Q (n, p, v)) ⊢ wp (get_vector a) Q.
Proof. iIntros (E) "[H K]". iApply wp_bind. iApply wp_get_block_own; [done|]. iFrame "H". iIntros "H". iApply wp_ret. by iApply "K". Qed.
Lemma wp_get_vec a n p v (Q : _ → oprop) : a ↦ CBlock (BVector n p v) ∗ (a ↦ CBlock (BVector n p v) -∗ Q (n, p, v)) ⊢ wp (get_vector a) Q.
Proof. iIntros "[H K]". iApply wp_bind. iApply wp_get_block. iFrame "H". iIntros "H". iApply wp_ret. by iApply "K". Qed.

Lemma zeros_concat (k C : nat) : concat (repeat (repeat 0%Z C) k) = repeat 0%Z (k * C).
Proof. induction k as [|k IH]; [done|]. cbn. rewrite IH -repeat_app. done. Qed.
Definition zeros (R C : Z) : list (list Z) := repeat (repeat 0%Z (Z.to_nat C)) (Z.to_nat R).
Lemma zeros_shape R C : (0 ≤ R)%Z → (0 ≤ C)%Z → shape R C (zeros R C).
Proof.
  intros HR HC. split; unfold zeros, zlength; [rewrite repeat_length; lia|]. apply Forall_forall. intros x Hx%repeat_spec. subst. rewrite repeat_length. lia.
Qed.
Lemma supported_iff p : supported cfg p ↔ osl_int_is_precision_supported p = true.
Proof.
  unfold osl_int_is_precision_supported, supported, PRECISION_SP, PRECISION_DP, PRECISION_MP.
  destruct (Z.eqb_spec p 32), (Z.eqb_spec p 64), (Z.eqb_spec p 0), (gmp cfg); cbn; subst; intuition congruence.
Qed.
Lemma pmalloc_zeros p R C : osl_int_is_precision_supported p = true → (0 ≤ R)%Z → (0 ≤ C)%Z →
  osl_relation_pmalloc p R C = Ok (mkrel UNDEFINED p R C UNDEFINED UNDEFINED UNDEFINED UNDEFINED (if Z.eqb R 0 || Z.eqb C 0 then [] else zeros R C)).
Proof.
  intros Hp HR HC. destruct (pmalloc_ok p R C) as (m & E & Hm & Hc); [by apply supported_iff|done|done|]. rewrite E. do 2 f_equal.
  destruct (_ || _) eqn:Ez; [apply Hm; lia|]. apply (mat_ext R C); [done| |].
  - destruct (zeros_shape R C HR HC). split; [done|]. split; [done|]. split; [lia|]. done.
  - intros i j Hi Hj. rewrite Hc; [|done|done]. unfold LoopLemmas.cell, zeros, znth. rewrite (nth_indep _ _ (repeat 0%Z (Z.to_nat C))); [|rewrite repeat_length; lia].
    by rewrite nth_repeat nth_repeat.
Qed.
Lemma wp_set_row m (l : list (option addr)) i a (Q : _ → oprop) : (0 ≤ i < Z.of_nat (List.length l))%Z →
  m ↦ CBlock (BRows l) ∗ (m ↦ CBlock (BRows (<[Z.to_nat i := Some a]> l)) -∗ Q tt) ⊢ wp (set_row m i a) Q.
Proof.
  iIntros (Hi) "[H K]". iApply wp_bind. iApply wp_bind. iApply wp_get_block. iFrame "H". iIntros "H". iApply wp_ret.
  replace (Z.leb 0 i && Z.ltb i (Z.of_nat (List.length l))) with true by lia. iApply wp_put. iFrame.
Qed.
(** The row pointers set one after the other. *)
Definition some_rows (q : ptr) (R C i : Z) : list (option (ptr * Z)) := row_starts q i C ++ repeat None (Z.to_nat (R - i)).
Lemma some_rows_next q R C i : (0 ≤ i < R)%Z → <[Z.to_nat i := Some (q, i * C)%Z]> (some_rows q R C i) = some_rows q R C (i + 1).
Proof.
  intros Hi. unfold some_rows, row_starts. rewrite insert_app_r_alt; [|rewrite map_length seq_length; lia]. rewrite map_length seq_length Nat.sub_diag.
  replace (Z.to_nat (R - i)) with (S (Z.to_nat (R - (i + 1)))) by lia. cbn [repeat insert list_insert].
  replace (Z.to_nat (i + 1)) with (S (Z.to_nat i)) by lia. rewrite seq_S map_app -app_assoc. cbn [List.map app]. do 3 f_equal. cbn. rewrite Z2Nat.id; [done|lia].
Qed.
Lemma some_rows_lookup q R C i : (0 ≤ i)%Z → some_rows q R C (i + 1) !! Z.to_nat i = Some (Some (q, i * C)%Z).
Proof. intros Hi. unfold some_rows. rewrite lookup_app_l; [apply row_starts_lookup; lia|]. unfold row_starts. rewrite map_length seq_length. lia. Qed.
Lemma repeat_snoc {A} (x : A) n : repeat x n ++ [x] = repeat x (S n).
Proof. induction n as [|n IH]; [done|]. cbn. by rewrite IH. Qed.

Lemma sim_pmalloc p R C (Q : relation → ptr → oprop) :
  (∀ r a, <affine> ⌜osl_relation_pmalloc p R C = Ok r⌝ -∗ M (m_part a r NULL) -∗ Q r a) ⊢ sim (osl_relation_pmalloc p R C) (osl_relation_pmalloc_m p R C) Q.
Proof.
  unfold osl_relation_pmalloc_m. destruct (negb _ && _ && _) eqn:Ep.
  { unfold osl_relation_pmalloc at 2. rewrite Ep. apply sim_err. }
  destruct (Z.ltb R 0 || Z.ltb C 0) eqn:En. { unfold osl_relation_pmalloc at 2. rewrite Ep En. apply sim_err. }
  destruct (Z.eqb R 0 || Z.eqb C 0) eqn:Ez.
  { assert (osl_relation_pmalloc p R C = Ok (mkrel UNDEFINED p R C UNDEFINED UNDEFINED UNDEFINED UNDEFINED [])) as E by (unfold osl_relation_pmalloc; by rewrite Ep En Ez).
    rewrite E. iIntros "K". iApply wp_bind. iApply wp_malloc. iIntros (a) "A". iApply wp_ret. iApply "K"; [done|]. iExists NULL. rewrite !M_beside M_cell M_nothing. iFrame "A".
    iSplitR; [iPureIntro; cbn; lia|]. unfold m_matrix. cbn [nrows ncols]. rewrite Ez. by rewrite M_nothing. }
  destruct (osl_int_is_precision_supported p) eqn:Hp.
  - rewrite pmalloc_zeros; [|done|lia|lia]. rewrite Ez. cbn [sim]. iIntros "K". iApply wp_bind. iApply wp_malloc. iIntros (a) "A". iApply wp_bind. iApply wp_malloc. iIntros (m) "B".
    iApply wp_bind. iApply wp_malloc. iIntros (q) "D". iApply wp_bind. iApply wp_put. iFrame "A". iIntros "A". iApply wp_bind.
    iApply (wp_zfor (λ i, m ↦ CBlock (BRows (some_rows q R C i)) ∗ filled p q (Z.to_nat (R * C)) (repeat 0%Z (Z.to_nat (i * C))))); [lia| |].
    + intros i Hi. iIntros "[B D]". iApply wp_bind. iApply (wp_set_row m (some_rows q R C i)); [unfold some_rows, row_starts; rewrite app_length map_length seq_length repeat_length; lia|].
      iFrame "B". rewrite some_rows_next; [|done]. iIntros "B".
      iApply (wp_zfor (λ j, m ↦ CBlock (BRows (some_rows q R C (i + 1))) ∗ filled p q (Z.to_nat (R * C)) (repeat 0%Z (Z.to_nat (i * C + j))))); [lia| |].
      * intros j Hj. iIntros "[B D]". iApply wp_bind. iApply wp_bind. iApply wp_bind. iApply wp_bind. iApply wp_get_block. iFrame "B". iIntros "B". iApply wp_ret.
        replace (Z.ltb i 0) with false by lia. rewrite some_rows_lookup; [|lia]. iApply wp_ret. iApply wp_ret.
        iApply wp_wand. iSplitL "D".
        { iPoseProof (filled_step p q (Z.to_nat (R * C)) (repeat 0%Z (Z.to_nat (i * C + j))) 0%Z Hp with "D") as "X"; [rewrite repeat_length; nia|].
          unfold shift. cbn [fst snd]. replace (zlength (repeat 0%Z (Z.to_nat (i * C + j)))) with (i * C + j)%Z by (unfold zlength; rewrite repeat_length; nia). iExact "X". }
        iIntros (u) "D". iFrame "B". rewrite repeat_snoc. replace (S (Z.to_nat (i * C + j))) with (Z.to_nat (i * C + (j + 1))) by nia. iFrame "D".
      * rewrite Z.add_0_r. iFrame "B D". iIntros "[B D]". iFrame "B". by replace (i * C + C)%Z with ((i + 1) * C)%Z by lia.
    + iSplitL "B D". { unfold some_rows. cbn. rewrite Z.sub_0_r. iFrame "B". by iApply filled_start. }
      iIntros "[B D]". iApply wp_ret. iApply "K"; [done|]. iExists m. rewrite !M_beside M_cell M_nothing. iFrame "A".
      iSplitR; [iPureIntro; cbn; lia|]. unfold m_matrix. cbn [nrows ncols rm rprec]. rewrite Ez. iExists q. rewrite !M_beside M_cell M_nothing.
      unfold some_rows. rewrite Z.sub_diag app_nil_r. iFrame "B". iSplitL; [|iPureIntro; apply zeros_shape; lia].
      unfold zeros. rewrite zeros_concat. replace (Z.to_nat R * Z.to_nat C)%nat with (Z.to_nat (R * C)) by nia. iApply filled_end. by rewrite repeat_length.
  - assert (osl_relation_pmalloc p R C = Err) as E.
    { unfold osl_relation_pmalloc. rewrite Ep En Ez. unfold cfor. rewrite !Z.sub_0_r. destruct (Z.to_nat R) eqn:ER; [lia|]. destruct (Z.to_nat C) eqn:EC; [lia|]. cbn [for_loop].
      unfold osl_int_init_set_si. by rewrite pswitch_err. }
    rewrite E. cbn [sim]. iIntros "K". iApply wpe_bind. iApply wp_malloc. iIntros (a) "A". iApply wpe_bind. iApply wp_malloc. iIntros (m) "B".
    iApply wpe_bind. iApply wp_malloc. iIntros (q) "D". iApply wpe_bind. iApply wp_put. iFrame "A". iIntros "A". iApply wpe_bind_l.
    unfold zfor. rewrite !Z.sub_0_r. destruct (Z.to_nat R) eqn:ER; [lia|]. destruct (Z.to_nat C) eqn:EC; [lia|]. cbn [zfor_loop]. iApply wpe_bind_l.
    iApply wpe_bind. iApply (wp_set_row m (repeat None (S n))); [rewrite repeat_length; lia|]. iFrame "B". iIntros "B". iApply wpe_bind_l. iApply wpe_bind. iApply wp_bind. iApply wp_bind. iApply wp_bind. iApply wp_get_block.
    iFrame "B". iIntros "B". iApply wp_ret. cbn. iApply wp_ret. iApply wp_ret. iApply wpe_init_set_si; [done|]. iCombine "A B D K" as "X". iExact "X".
Qed.

(** ** Release *)
Lemma wp_clear p b cs k c z l (Q : _ → oprop) : (0 ≤ k)%Z → drop (Z.to_nat k) cs = Some c :: l →
  b ↦ CBlock (BCells cs) ∗ M (m_coef p c z) ∗ (∀ cs', <affine> ⌜drop (Z.to_nat (k + 1)) cs' = l⌝ -∗ b ↦ CBlock (BCells cs') -∗ Q tt) ⊢ wp (osl_int_clear_m p (b, k)) Q.
Proof.
  iIntros (Hk Ek) "(B & C & K)". iDestruct (m_coef_known with "C") as "[%Hp C]". iApply wp_bind. iApply (wp_lift _ tt); [by apply (pswitch_ok p)|]. rewrite (supported_mp p Hp).
  assert (cs !! Z.to_nat k = Some (Some c)) as Ec. { rewrite -(Nat.add_0_r (Z.to_nat k)) -lookup_drop Ek. done. }
  assert (drop (Z.to_nat (k + 1)) cs = l) as El. { replace (Z.to_nat (k + 1)) with (Z.to_nat k + 1)%nat by lia. by rewrite -drop_drop Ek. }
  unfold m_coef. destruct (Z.eqb p PRECISION_MP) eqn:Ep.
  - iDestruct "C" as "[_ C]". iDestruct "C" as ([q d]) "C". iDestruct "C" as "(%E & A & D)". subst c. iApply wp_bind. rewrite !M_cell. iApply wp_coef_at; [lia|done|].
    iFrame "B". iIntros "B". iApply wp_bind. iApply wp_bind. iApply wp_get_block. iFrame "A". iIntros "A". iApply wp_ret. iApply wp_bind. iApply wp_bind. iApply wp_get_block.
    iFrame "D". iIntros "D". iApply wp_ret. iApply wp_bind. iApply wp_free. iFrame "D". iApply wp_free. iFrame "A". by iApply ("K" with "[//]").
  - iDestruct "C" as "[_ %E]". subst c. rewrite ?M_cell. iApply (wp_set_coef b cs); [apply lookup_lt_Some in Ec; lia|]. iFrame "B". iIntros "B". iApply ("K" with "[] B"). iPureIntro.
    rewrite drop_insert_gt; [done|lia].
Qed.
(** All the numbers of an array cleared, whatever way their addresses are computed. *)
Lemma wp_clear_all p b l N (P : oprop) (f : Z → oprog unit) (Q : _ → oprop) : zlength l = N →
  (∀ i Q', (0 ≤ i < N)%Z → P ∗ (P -∗ wp (osl_int_clear_m p (b, i)) Q') ⊢ wp (f i) Q') →
  P ∗ M (m_array p b l) ∗ (∀ cs, P -∗ b ↦ CBlock (BCells cs) -∗ Q tt) ⊢ wp (zfor 0 N f) Q.
Proof.
  intros HN Hf. unfold zlength in HN. iIntros "(P & H & K)".
  iApply (wp_zfor (λ i, P ∗ ∃ cs cs', b ↦ CBlock (BCells cs) ∗ <affine> ⌜drop (Z.to_nat i) cs = List.map Some cs'⌝ ∗ M (m_coefs p cs' (drop (Z.to_nat i) l))) with "[$P H K]"); [lia| |].
  - intros i Hi. iIntros "[P H]". iDestruct "H" as (cs cs') "(B & %E & C)". iApply Hf; [done|]. iFrame "P". iIntros "P".
    destruct (drop (Z.to_nat i) l) as [|z l'] eqn:El. { apply (f_equal List.length) in El. rewrite drop_length in El. cbn in El. lia. }
    destruct cs' as [|c cs']; cbn [m_coefs]. { iDestruct "C" as "%F". done. }
    iDestruct "C" as "[C D]". iApply wp_clear; [lia|exact E|]. iFrame "B C". iIntros (cs2) "%E2 B". iFrame "P". iExists cs2, cs'. iFrame "B".
    assert (drop (Z.to_nat (i + 1)) l = l') as ->. { replace (Z.to_nat (i + 1)) with (Z.to_nat i + 1)%nat by lia. by rewrite -drop_drop El. }
    iFrame "D". done.
  - iSplitL "H".
    + iDestruct "H" as (cs) "[B C]". rewrite M_cell. iExists _, cs. iFrame "B". cbn. by iFrame.
    + iIntros "[P H]". iDestruct "H" as (cs cs') "(B & %E & C)". iApply ("K" with "P [B C]"). rewrite (drop_ge l); [|lia]. destruct cs'; cbn [m_coefs]; iDestruct "C" as "%F"; [iFrame|done].
Qed.
Lemma wp_free_inside a r m n (Q : _ → oprop) (mat : list (list Z)) : (0 ≤ nrows r)%Z → (0 ≤ ncols r)%Z →
  a ↦ CBlock (BRel r m n) ∗ M (m_matrix (rprec r) m (nrows r) (ncols r) mat) ∗ (a ↦ CBlock (BRel r m n) -∗ Q tt) ⊢ wp (osl_relation_free_inside_m a) Q.
Proof.
  iIntros (HR HC) "(A & H & K)". unfold osl_relation_free_inside_m. iDestruct (isnull_false with "A") as "[%Ea A]". rewrite Ea. iApply wp_bind. iApply wp_get_part. iFrame "A". iIntros "A".
  unfold m_matrix. destruct (Z.eqb (nrows r) 0 || Z.eqb (ncols r) 0) eqn:Ez.
  - iDestruct "H" as "%H". destruct H as [-> ->]. replace (nrows r * ncols r)%Z with 0%Z by nia. cbn. iApply wp_bind. iApply wp_ret. iApply wp_ret. by iApply "K".
  - iDestruct "H" as (q) "(B & D & %S)". rewrite M_cell. iApply wp_bind.
    iApply (wp_clear_all (rprec r) q (concat mat) _ (m ↦ CBlock (BRows (row_starts q (nrows r) (ncols r))))); [by apply concat_length| |].
    + intros i Q' Hi. iIntros "[B K]". iApply wp_bind. iApply (wp_entry m q (nrows r) (ncols r)); [lia|]. iFrame "B". iIntros "B". rewrite Z.mul_0_l Z.add_0_l. by iApply "K".
    + iFrame "B D". iIntros (cs) "B D". iDestruct (isnull_false with "B") as "[%Em B]". rewrite Em. replace (Z.ltb 0 (nrows r * ncols r)) with true by nia.
      iApply wp_bind. iApply wp_bind. iApply (wp_row_at m q (nrows r) (ncols r)); [lia|]. iFrame "B". iIntros "B". cbn [fst snd]. rewrite Z.mul_0_l Z.eqb_refl. iApply wp_free. iFrame "D". iApply wp_free. iFrame "B". by iApply "K".
Qed.
End MAT.
