(** * MatProofs5: vectors; rows combined in place *)
From stdpp Require Import gmap.
From iris.proofmode Require Import tactics.
From Coq Require Import ZifyBool ZifyNat.
From Verif Require Import Base IntModel VectorModel RelationModel Spec RelSpec LoopLemmas IntProofs RelationProofs HeapModel HeapObjects HeapSpec HeapLogic HeapProofs PayloadModel PayloadSpec PayloadProofs PayloadProofs2 MatModel MatSpec MatProofs MatProofs2 MatProofs3 MatProofs4.
Local Open Scope string_scope.
Local Open Scope list_scope.
Local Open Scope Z_scope.
Local Open Scope bi_scope.

Section MAT.
Context {cfg : config} {al : Allocator obj}.

(** ** Vectors *)
(** A vector whose array is at [b]. *)
Definition vec_at (a b : ptr) (v : vector) : oprop :=
  a ↦ CBlock (BVector (vsize v) (vprec v) b) ∗ <affine> ⌜vsize v = zlength (vv v)⌝ ∗ (if Z.eqb (vsize v) 0 then <affine> ⌜b = NULL⌝ else M (m_array (vprec v) b (vv v))).
Lemma M_vector a v : M (m_vector a v) ⊣⊢ ∃ b, vec_at a b v.
Proof.
  unfold m_vector, vec_at. iSplit; iIntros "P"; iDestruct "P" as (b) "(A & %B & D)"; iExists b; rewrite ?M_beside ?M_cell ?M_nothing; iFrame "A"; (iSplitR; [done|]); destruct (Z.eqb _ 0); rewrite ?M_nothing; done.
Qed.
Lemma sees_vector h a v : sees h (m_vector a v) → (∃ b, h !! a = Some (CBlock (BVector (vsize v) (vprec v) b)) ∧ isnull a = false ∧ vsize v = zlength (vv v) ∧
  (vv v ≠ [] → sees h (m_array (vprec v) b (vv v))))%type.
Proof.
  intros (b & [[E Ha]%sees_cell [Hl%sees_nothing S]%sees_beside]%sees_beside)%sees_somewhere. exists b. split_and!; try done; [by apply null_ne|]. intros Hv.
  destruct (Z.eqb_spec (vsize v) 0) as [E0|]; [|done]. rewrite E0 in Hl. destruct (vv v); [done|]. unfold zlength in Hl. cbn in Hl. lia.
Qed.
Lemma aget_nonempty {A} (l : list A) i x : aget l i = Ok x → l ≠ [].
Proof. intros [_ E]%aget_inv ->. done. Qed.
Lemma vpmalloc_zeros p n : osl_int_is_precision_supported p = true → (0 < n)%Z → osl_vector_pmalloc p n = Ok (mkvec p n (repeat 0%Z (Z.to_nat n))).
Proof.
  intros Hp Hn. unfold osl_vector_pmalloc. replace (Z.eqb n 0) with false by lia. replace (Z.ltb n 0) with false by lia.
  set (F := λ (i : Z) (v : list Z), x <- osl_int_init_set_si p 0 ;; aset v i x). assert (∀ i v, F i v = aset v i 0%Z) as HF by (intros; unfold F, osl_int_init_set_si; by rewrite pswitch_ok).
  assert (∀ k i l, zlength l = n → (0 ≤ i)%Z → (i + Z.of_nat k = n)%Z → for_loop k i F (repeat 0%Z (Z.to_nat i) ++ drop (Z.to_nat i) l) =
    Ok (repeat 0%Z (Z.to_nat n)))%type as H.
  { induction k as [|k IH]; intros i l Hl Hi Hk; cbn [for_loop].
    - unfold zlength in Hl. rewrite drop_ge; [|lia]. rewrite app_nil_r. do 2 f_equal. lia.
    - rewrite HF. unfold aset. unfold zlength in Hl.
      destruct (drop (Z.to_nat i) l) as [|y l'] eqn:El. { apply (f_equal List.length) in El. rewrite drop_length in El. cbn in El. lia. }
      assert (drop (Z.to_nat (i + 1)) l = l') as El'. { replace (Z.to_nat (i + 1)) with (Z.to_nat i + 1)%nat by lia. by rewrite -drop_drop El. }
      match goal with |- context [if ?c then _ else _] => assert (c = true) as -> end.
      { assert (List.length (y :: l') = (List.length l - Z.to_nat i)%nat) as X by (by rewrite -El drop_length). cbn in X. rewrite app_length repeat_length. cbn [List.length]. lia. }
      cbn [bind]. rewrite list_set_insert insert_app_r_alt; [|rewrite repeat_length; lia]. rewrite repeat_length Nat.sub_diag. cbn [insert list_insert].
      rewrite -(IH (i + 1)%Z l); [|done|lia|lia]. rewrite El'. replace (Z.to_nat (i + 1)) with (S (Z.to_nat i)) by lia. rewrite -repeat_snoc -app_assoc. done. }
  unfold cfor. rewrite Z.sub_0_r. specialize (H (Z.to_nat n) 0%Z (repeat POISON (Z.to_nat n))). cbn [Z.to_nat repeat app drop] in H. rewrite H; [done|unfold zlength; rewrite repeat_length; lia|lia|lia].
Qed.
Lemma sim_vpmalloc p n (Q : vector → ptr → oprop) :
  (∀ a b l, vec_at a b (mkvec p n l) -∗ Q (mkvec p n l) a) ⊢ sim (osl_vector_pmalloc p n) (osl_vector_pmalloc_m p n) Q.
Proof.
  iIntros "K". unfold osl_vector_pmalloc_m. iApply sim_heap. iApply wp_malloc. iIntros (a) "A". destruct (Z.eqb n 0) eqn:E0.
  { unfold osl_vector_pmalloc. rewrite E0. iApply sim_ret. iApply ("K" $! a NULL). unfold vec_at. cbn [vsize vprec vv]. rewrite E0. iFrame. iPureIntro. split; [unfold zlength; cbn; lia|done]. }
  destruct (Z.ltb n 0) eqn:En. { unfold osl_vector_pmalloc. rewrite E0 En. iStopProof. apply sim_err. }
  destruct (osl_int_is_precision_supported p) eqn:Hp.
  - rewrite vpmalloc_zeros; [|done|lia]. iApply sim_ok. iApply wp_bind. iApply wp_malloc. iIntros (b) "B". iApply wp_bind. iApply wp_put. iFrame "A". iIntros "A". iApply wp_bind.
    iApply (wp_zfor (λ i, filled p b (Z.to_nat n) (repeat 0%Z (Z.to_nat i)))); [lia| |].
    + intros i Hi. iIntros "D". iPoseProof (filled_step p b (Z.to_nat n) (repeat 0%Z (Z.to_nat i)) 0%Z Hp with "D") as "X"; [rewrite repeat_length; lia|].
      replace (zlength (repeat 0%Z (Z.to_nat i))) with i by (unfold zlength; rewrite repeat_length; lia). iApply wp_wand. iFrame "X". iIntros (u) "D". rewrite repeat_snoc.
      by replace (S (Z.to_nat i)) with (Z.to_nat (i + 1)) by lia.
    + iSplitL "B"; [by iApply filled_start|]. iIntros "D". iApply wp_ret. iApply "K". unfold vec_at. cbn [vsize vprec vv]. rewrite E0. iFrame "A". iSplitR; [iPureIntro; unfold zlength; rewrite repeat_length; lia|].
      iApply filled_end. by rewrite repeat_length.
  - assert (osl_vector_pmalloc p n = Err) as E.
    { unfold osl_vector_pmalloc. rewrite E0 En. unfold cfor. rewrite Z.sub_0_r. destruct (Z.to_nat n) eqn:ER; [lia|]. cbn [for_loop]. unfold osl_int_init_set_si. by rewrite pswitch_err. }
    rewrite E. iApply sim_heap. iApply wp_malloc. iIntros (b) "B". iApply sim_heap. iApply wp_put. iFrame "A". iIntros "A". cbn [sim]. iApply wpe_bind_l.
    unfold zfor. rewrite Z.sub_0_r. destruct (Z.to_nat n) eqn:ER; [lia|]. cbn [zfor_loop]. iApply wpe_bind_l. iStopProof. by apply wpe_init_set_si.
Qed.
Lemma wp_vector_free a v (Q : _ → oprop) : M (m_vector a v) ∗ Q tt ⊢ wp (osl_vector_free_m a) Q.
Proof.
  rewrite M_vector. iIntros "[P K]". iDestruct "P" as (b) "(A & %Hl & D)". unfold osl_vector_free_m. iDestruct (isnull_false with "A") as "[%Ea A]". rewrite Ea.
  iApply wp_bind. iApply wp_get_vec. iFrame "A". iIntros "A". iApply wp_bind. destruct (Z.eqb (vsize v) 0) eqn:E0.
  - iDestruct "D" as "%Eb". subst b. cbn. iApply wp_ret. iApply wp_free. iFrame.
  - iAssert (∃ l, b ↦ CBlock (BCells l) ∗ (b ↦ CBlock (BCells l) -∗ M (m_array (vprec v) b (vv v))))%I with "[D]" as "D".
    { iDestruct "D" as (cs) "[B D]". rewrite M_cell. iExists _. iFrame "B". iIntros "B". iExists cs. rewrite M_beside M_cell. iFrame. }
    iDestruct "D" as (l) "[B D]". iDestruct (isnull_false with "B") as "[%Eb B]". rewrite Eb. iDestruct ("D" with "B") as "D". iApply wp_bind.
    iApply (wp_clear_all (vprec v) b (vv v) (vsize v) emp%I); [done| |].
    + intros i Q' Hi. iIntros "[_ K]". by iApply "K".
    + iSplitR; [done|]. iFrame "D". iIntros (cs) "_ B". iApply wp_free. iFrame "B". iApply wp_free. iFrame.
Qed.

(** ** A row replaced by a vector *)
Lemma sim_vec_cell h p b l md R C i di dj m : (l ≠ [] → sees h (m_array p b l)) →
  own h ∗ M (m_matrix p md R C m) ⊢
  sim (x <- aget l i ;; y <- osl_int_assign p x ;; mset m di dj y) (a <== entry md di dj ;; osl_int_assign_m p a (b, i)) (λ m' _, own h ∗ M (m_matrix p md R C m')).
Proof.
  intros S0. destruct (aget l i) as [x| | |] eqn:E1; cbn [bind]; [|by destruct (aget_not_err l i)|by iIntros "_"..].
  assert (sees h (m_array p b l)) as S by (apply S0; by eapply aget_nonempty). destruct (aget_inv _ _ _ E1) as [Hi Ex].
  assert (osl_int_is_precision_supported p = true) as Hp. { eapply sees_known; [done|]. by eapply aget_nonempty. }
  assert (osl_int_assign p x = Ok x) as Ea by by apply (pswitch_ok p).
  rewrite Ea. cbn [bind]. destruct (mset m di dj x) as [m'| | |] eqn:E2; cbn [sim]; [|by destruct (mset_not_err m di dj x)|by iIntros "_"..].
  iIntros "[H D]". iDestruct (m_matrix_open _ _ _ _ _ _ _ _ _ E2 with "D") as (qd) "(%Sd & A & B & K)".
  destruct (mset_inv _ _ _ _ _ _ _ Sd E2) as (Hi' & Hj' & Ec & Sd').
  iApply wp_bind. iApply wp_entry; [done|]. iFrame "A". iIntros "A". 
  iApply wp_bind. iApply wp_number_own; [done|lia|done|]. iFrame "H". iIntros "H". iApply wp_bind. iApply wp_lift; [done|].
  iApply (wp_renumber p qd (concat m)); [rewrite (concat_length _ _ _ Sd); nia|]. iFrame "B". iIntros "B". rewrite -Ec. iFrame "H". iApply ("K" with "[//] A B").
Qed.
Lemma row_guard r v row : negb (vector_row_ok r v row) = (negb (Z.eqb (rprec r) (vprec v)) || negb (Z.eqb (ncols r) (vsize v)) || Z.leb (nrows r) row || Z.ltb row 0).
Proof. unfold vector_row_ok. lia. Qed.
Lemma sim_replace_vector h a r m n pv v row (Q : relation → unit → oprop) : sees h (m_vector pv v) →
  own h ∗ a ↦ CBlock (BRel (bare r) m n) ∗ M (m_matrix (rprec r) m (nrows r) (ncols r) (rm r)) ∗
  (∀ mat, own h -∗ a ↦ CBlock (BRel (bare r) m n) -∗ M (m_matrix (rprec r) m (nrows r) (ncols r) mat) -∗ Q (with_m r (nrows r) (ncols r) mat) tt) ⊢
  sim (osl_relation_replace_vector r v row) (osl_relation_replace_vector_m a pv row) Q.
Proof.
  intros (b & Ev & Epv & Hl & S)%sees_vector. iIntros "(H & A & D & K)". unfold osl_relation_replace_vector_m. iDestruct (isnull_false with "A") as "[%Ea A]". rewrite Ea Epv. cbn [orb].
  iApply sim_heap. iApply wp_get_part. iFrame "A". iIntros "A". iApply sim_heap. iApply wp_get_vec_own; [done|]. iFrame "H". iIntros "H".
  unfold osl_relation_replace_vector. rewrite row_guard. cbn [bare with_m rprec nrows ncols]. destruct (_ || _) eqn:Eg; [iStopProof; apply sim_err|].
  assert (rprec r = vprec v) as Ep by lia. rewrite -Ep in S.
  iApply sim_map. iApply (sim_cfor (λ m', own h ∗ M (m_matrix (rprec r) m (nrows r) (ncols r) m'))).
  - intros j s _. by apply sim_vec_cell.
  - iFrame "H D". iIntros (m') "[H D]". iApply ("K" with "H A D").
Qed.
(** An element combined with the one of a vector, in place. *)
Lemma sim_op_cell (op : Z → Z → Z → res Z) h p b l md R C i di dj m : (l ≠ [] → sees h (m_array p b l)) →
  own h ∗ M (m_matrix p md R C m) ⊢
  sim (x <- mget m di dj ;; z <- aget l i ;; y <- op p x z ;; mset m di dj y) (a <== entry md di dj ;; int_op_m op p a a (b, i)) (λ m' _, own h ∗ M (m_matrix p md R C m')).
Proof.
  intros S0. destruct (mget m di dj) as [x| | |] eqn:E0; cbn [bind]; [|by destruct (mget_not_err m di dj)|by iIntros "_"..].
  destruct (aget l i) as [z| | |] eqn:E1; cbn [bind]; [|by destruct (aget_not_err l i)|by iIntros "_"..].
  assert (sees h (m_array p b l)) as S by (apply S0; by eapply aget_nonempty). destruct (aget_inv _ _ _ E1) as [Hi Ex].
  iIntros "[H D]". unfold m_matrix at 1. destruct (_ || _) eqn:Ez.
  { iDestruct "D" as "%F". destruct F as [_ ->]. unfold mget, aget in E0. destruct (di <? 0); [done|]. by destruct (Z.to_nat di). }
  iDestruct "D" as (q) "(A & B & %Sd)". rewrite M_cell. destruct (mget_inv _ _ _ _ _ _ Sd E0) as (Hi' & Hj' & Exx).
  iApply sim_heap. iApply wp_entry; [done|]. iFrame "A". iIntros "A". iApply sim_heap. iApply wp_number; [nia|done|]. iFrame "B". iIntros "B".
  iApply sim_heap. iApply wp_number_own; [done|lia|done|]. iFrame "H". iIntros "H". iApply sim_bind. iApply sim_lift. iIntros (y) "%Ey".
  destruct (mset m di dj y) as [m'| | |] eqn:E2; cbn [sim]; [|by destruct (mset_not_err m di dj y)|by iStopProof; iIntros "_"..].
  destruct (mset_inv _ _ _ _ _ _ _ Sd E2) as (_ & _ & Ec & Sd').
  iApply (wp_renumber p q (concat m)); [rewrite (concat_length _ _ _ Sd); nia|]. iFrame "B". iIntros "B". rewrite -Ec. iFrame "H". unfold m_matrix. rewrite Ez. iExists q. rewrite !M_beside M_cell M_nothing. by iFrame.
Qed.
Lemma sim_combine_vector op h a r m n pv v row (Q : relation → unit → oprop) : sees h (m_vector pv v) →
  own h ∗ a ↦ CBlock (BRel (bare r) m n) ∗ M (m_matrix (rprec r) m (nrows r) (ncols r) (rm r)) ∗
  (∀ mat, own h -∗ a ↦ CBlock (BRel (bare r) m n) -∗ M (m_matrix (rprec r) m (nrows r) (ncols r) mat) -∗ Q (with_m r (nrows r) (ncols r) mat) tt) ⊢
  sim (combine_vector op r v row) (combine_vector_m op a pv row) Q.
Proof.
  intros (b & Ev & Epv & Hl & S)%sees_vector. iIntros "(H & A & D & K)". unfold combine_vector_m. iDestruct (isnull_false with "A") as "[%Ea A]". rewrite Ea Epv. cbn [orb].
  iApply sim_heap. iApply wp_get_part. iFrame "A". iIntros "A". iApply sim_heap. iApply wp_get_vec_own; [done|]. iFrame "H". iIntros "H".
  unfold combine_vector. rewrite row_guard. cbn [bare with_m rprec nrows ncols]. destruct (_ || _) eqn:Eg; [iStopProof; apply sim_err|].
  assert (rprec r = vprec v) as Ep by lia. rewrite -Ep in S.
  destruct (mget (rm r) row 0) as [x| | |] eqn:E0; cbn [bind]; [|by destruct (mget_not_err (rm r) row 0)|by iStopProof; iIntros "_"..].
  unfold m_matrix at 1. destruct (Z.eqb (nrows r) 0 || Z.eqb (ncols r) 0) eqn:Ez.
  { iDestruct "D" as "%F". destruct F as [_ F]. rewrite F in E0. unfold mget, aget in E0. destruct (row <? 0); [done|]. by destruct (Z.to_nat row). }
  iDestruct "D" as (q) "(R & B & %Sd)". rewrite M_cell. destruct (mget_inv _ _ _ _ _ _ Sd E0) as (Hi' & Hj' & Exx).
  iApply sim_heap. iApply wp_entry; [done|]. iFrame "R". iIntros "R". iApply sim_heap. iApply wp_number; [nia|done|]. iFrame "B". iIntros "B".
  iAssert (M (m_matrix (rprec r) m (nrows r) (ncols r) (rm r))) with "[R B]" as "D". { unfold m_matrix. rewrite Ez. iExists q. rewrite !M_beside M_cell M_nothing. by iFrame. }
  iApply sim_bind. iApply sim_lift. iIntros (t) "%Et". iApply sim_bind.
  iApply (sim_mono _ _ (λ m' _, own h ∗ M (m_matrix (rprec r) m (nrows r) (ncols r) m'))). iSplitL "H D".
  { destruct (Z.eqb t 0); [iApply sim_vec_cell; [done|]; iFrame|]. iApply sim_ret. iFrame. }
  iIntros (m' u) "%Em [H D]". iApply sim_map. iApply (sim_cfor (λ m', own h ∗ M (m_matrix (rprec r) m (nrows r) (ncols r) m'))).
  - intros j s _. by apply sim_op_cell.
  - iFrame "H D". iIntros (m'') "[H D]". iApply ("K" with "H A D").
Qed.

(** ** Rows swapped *)
Lemma sim_swap_cell p md R C m i1 i2 j : i1 ≠ i2 →
  M (m_matrix p md R C m) ⊢
  sim (a <- mget m i1 j ;; b <- mget m i2 j ;; ' (a', b') <- osl_int_swap p a b ;; m <- mset m i1 j a' ;; mset m i2 j b')
    (a <== entry md i1 j ;; b <== entry md i2 j ;; osl_int_swap_m p a b) (λ m' _, M (m_matrix p md R C m')).
Proof.
  intros Hne. destruct (mget m i1 j) as [x| | |] eqn:E0; cbn [bind]; [|by destruct (mget_not_err m i1 j)|by iIntros "_"..].
  destruct (mget m i2 j) as [y| | |] eqn:E1; cbn [bind]; [|by destruct (mget_not_err m i2 j)|by iIntros "_"..].
  iIntros "D". unfold m_matrix at 1. destruct (_ || _) eqn:Ez.
  { iDestruct "D" as "%F". destruct F as [_ ->]. unfold mget, aget in E0. destruct (i1 <? 0); [done|]. by destruct (Z.to_nat i1). }
  iDestruct "D" as (q) "(A & B & %Sd)". rewrite M_cell. destruct (mget_inv _ _ _ _ _ _ Sd E0) as (Hi & Hj & Ex). destruct (mget_inv _ _ _ _ _ _ Sd E1) as (Hi' & _ & Ey).
  iApply sim_heap. iApply wp_entry; [exact Hi|]. iFrame "A". iIntros "A". iApply sim_heap. iApply wp_entry; [exact Hi'|]. iFrame "A". iIntros "A".
  iApply sim_heap. iApply wp_number; [nia|exact Ex|]. iFrame "B". iIntros "B". iApply sim_heap. iApply wp_number; [nia|exact Ey|]. iFrame "B". iIntros "B".
  iApply sim_bind. iApply sim_lift. iIntros ([x' y']) "%Es". 
  destruct (mset m i1 j x') as [m'| | |] eqn:E2; cbn [bind sim]; [|by destruct (mset_not_err m i1 j x')|by iStopProof; iIntros "_"..].
  destruct (mset_inv _ _ _ _ _ _ _ Sd E2) as (_ & _ & Ec & Sd').
  destruct (mset m' i2 j y') as [m''| | |] eqn:E3; cbn [bind sim]; [|by destruct (mset_not_err m' i2 j y')|by iStopProof; iIntros "_"..].
  destruct (mset_inv _ _ _ _ _ _ _ Sd' E3) as (_ & _ & Ec' & Sd'').
  iApply wp_bind. iApply (wp_renumber p q (concat m)); [rewrite (concat_length _ _ _ Sd); nia|]. iFrame "B". iIntros "B". rewrite -Ec.
  iApply (wp_renumber p q (concat m')); [rewrite (concat_length _ _ _ Sd'); nia|]. iFrame "B". iIntros "B". rewrite -Ec'.
  unfold m_matrix. rewrite Ez. iExists q. rewrite !M_beside M_cell M_nothing. by iFrame.
Qed.
Lemma sim_swap_constraints a r n c1 c2 (Q : relation → unit → oprop) : M (m_part a r n) ∗ (∀ r', M (m_part a r' n) -∗ Q r' tt) ⊢
  sim (osl_relation_swap_constraints r c1 c2) (osl_relation_swap_constraints_m a c1 c2) Q.
Proof.
  iIntros "[P K]". rewrite {1}M_part. iDestruct "P" as (m) "(A & %Hr & D)". unfold osl_relation_swap_constraints_m, osl_relation_swap_constraints.
  iDestruct (isnull_false with "A") as "[%Ea A]". rewrite Ea. cbn [orb]. destruct (Z.eqb_spec c1 c2) as [Ec|Ec].
  { iApply sim_ret. iApply "K". rewrite M_part. iExists m. by iFrame. }
  iApply sim_heap. iApply wp_get_part. iFrame "A". iIntros "A". cbn [bare with_m rprec nrows ncols]. destruct (_ || _) eqn:Eg; [iStopProof; apply sim_err|].
  iApply sim_map. iApply (sim_cfor (λ m', M (m_matrix (rprec r) m (nrows r) (ncols r) m'))).
  - intros j s _. by apply sim_swap_cell.
  - iFrame "D". iIntros (m') "D". iApply "K". rewrite M_part. iExists m. by iFrame.
Qed.
End MAT.
