(** * MatProofs8: change of precision; arithmetic on vectors *)
From stdpp Require Import gmap.
From iris.proofmode Require Import tactics.
From Coq Require Import ZifyBool ZifyNat.
From Verif Require Import Base IntModel VectorModel RelationModel Spec RelSpec LoopLemmas IntProofs RelationProofs HeapModel HeapObjects HeapSpec HeapLogic HeapProofs PayloadModel PayloadSpec PayloadProofs PayloadProofs2 PayloadProofs5 MatModel MatSpec MatProofs MatProofs2 MatProofs3 MatProofs4 MatProofs5 MatProofs6 MatProofs7.
Local Open Scope string_scope.
Local Open Scope list_scope.
Local Open Scope Z_scope.
Local Open Scope bi_scope.
Notation loop := HeapModel.loop.

Section MAT.
Context {cfg : config} {al : Allocator obj}.

Lemma sim_for_at {S} (I : Z → S → oprop) (f : Z → S → res S) (g : Z → oprog unit) k : ∀ i s Q,
  (∀ j s, (i ≤ j < i + Z.of_nat k)%Z → I j s ⊢ sim (f j s) (g j) (λ s' _, I (j + 1)%Z s')) →
  I i s ∗ (∀ s', I (i + Z.of_nat k)%Z s' -∗ Q s' tt) ⊢ sim (for_loop k i f s) (zfor_loop k i g) Q.
Proof.
  induction k as [|k IH]; intros i s Q H; cbn [for_loop zfor_loop]; iIntros "[H K]".
  - iApply sim_ret. iApply "K". by rewrite Z.add_0_r.
  - iApply sim_bind. iApply sim_mono. iSplitL "H". { iApply (H i s with "H"). lia. }
    iIntros (s' u) "_ H". iApply IH; [intros j s0 Hj; apply H; lia|]. iFrame "H". iIntros (s2) "H". iApply "K". by replace (i + Z.of_nat (Datatypes.S k))%Z with (i + 1 + Z.of_nat k)%Z by lia.
Qed.
Lemma sim_cfor_at {S} (I : Z → S → oprop) (f : Z → S → res S) (g : Z → oprog unit) lo hi s Q : (lo ≤ hi)%Z →
  (∀ j s, (lo ≤ j < hi)%Z → I j s ⊢ sim (f j s) (g j) (λ s' _, I (j + 1)%Z s')) →
  I lo s ∗ (∀ s', I hi s' -∗ Q s' tt) ⊢ sim (cfor lo hi f s) (zfor lo hi g) Q.
Proof.
  intros Hl H. unfold cfor, zfor. iIntros "[H K]". iApply (sim_for_at I); [intros j s0 Hj; apply H; lia|]. iFrame "H". iIntros (s') "H". iApply "K".
  by replace (lo + Z.of_nat (Z.to_nat (hi - lo)))%Z with hi by lia.
Qed.

(** ** Change of precision *)
Lemma wp_number_coef p b cs k c z (Q : _ → oprop) : (0 ≤ k)%Z → cs !! Z.to_nat k = Some (Some c) →
  b ↦ CBlock (BCells cs) ∗ M (m_coef p c z) ∗ (b ↦ CBlock (BCells cs) -∗ M (m_coef p c z) -∗ Q z) ⊢ wp (number p (b, k)) Q.
Proof.
  iIntros (Hk Ec) "(B & C & K)". iDestruct (m_coef_known with "C") as "[%Hp C]". iApply wp_bind. iApply wp_known; [done|]. iApply wp_bind. iApply wp_coef_at; [done|done|]. iFrame "B". iIntros "B".
  rewrite (supported_mp p Hp). unfold m_coef. destruct (Z.eqb p PRECISION_MP) eqn:Ep.
  - iDestruct "C" as "[_ C]". iDestruct "C" as ([q d]) "C". iDestruct "C" as "(%E & A & D)". subst c. rewrite !M_cell. iApply wp_bind. iApply wp_bind. iApply wp_get_block. iFrame "A". iIntros "A". iApply wp_ret.
    iApply wp_bind. iApply wp_get_block. iFrame "D". iIntros "D". iApply wp_ret. iApply ("K" with "B"). rewrite M_beside M_nothing. iSplitR; [done|]. iExists (q, d). rewrite !M_beside !M_cell M_nothing. by iFrame.
  - iDestruct "C" as "[_ %E]". subst c. rewrite Z.eqb_refl. iApply wp_ret. iApply ("K" with "B"). rewrite M_beside !M_nothing. done.
Qed.
Lemma wp_clear_at p b cs k c z (Q : _ → oprop) : (0 ≤ k)%Z → cs !! Z.to_nat k = Some (Some c) →
  b ↦ CBlock (BCells cs) ∗ M (m_coef p c z) ∗ (∀ c', b ↦ CBlock (BCells (<[Z.to_nat k := Some c']> cs)) -∗ Q tt) ⊢ wp (osl_int_clear_m p (b, k)) Q.
Proof.
  iIntros (Hk Ec) "(B & C & K)". iDestruct (m_coef_known with "C") as "[%Hp C]". iApply wp_bind. iApply (wp_lift _ tt); [by apply (pswitch_ok p)|]. rewrite (supported_mp p Hp).
  unfold m_coef. destruct (Z.eqb p PRECISION_MP) eqn:Ep.
  - iDestruct "C" as "[_ C]". iDestruct "C" as ([q d]) "C". iDestruct "C" as "(%E & A & D)". subst c. iApply wp_bind. rewrite !M_cell. iApply wp_coef_at; [lia|done|].
    iFrame "B". iIntros "B". iApply wp_bind. iApply wp_bind. iApply wp_get_block. iFrame "A". iIntros "A". iApply wp_ret. iApply wp_bind. iApply wp_bind. iApply wp_get_block.
    iFrame "D". iIntros "D". iApply wp_ret. iApply wp_bind. iApply wp_free. iFrame "D". iApply wp_free. iFrame "A". iApply ("K" $! (Mp q)). by rewrite list_insert_id.
  - iDestruct "C" as "[_ %E]". subst c. iApply (wp_set_coef b cs); [apply lookup_lt_Some in Ec; lia|]. iFrame "B". iIntros "B". iApply ("K" with "B").
Qed.
(** The first [k] numbers in the new precision, the others in the old one. *)
Definition mixed (old new : Z) (md q : ptr) (R C k : Z) (m : list (list Z)) : oprop :=
  ∃ cs1 cs2, md ↦ CBlock (BRows (row_starts q R C)) ∗ q ↦ CBlock (BCells (List.map Some (cs1 ++ cs2))) ∗ <affine> ⌜shape R C m⌝ ∗
    M (m_coefs new cs1 (take (Z.to_nat k) (concat m))) ∗ M (m_coefs old cs2 (drop (Z.to_nat k) (concat m))).
Lemma sim_mixed old new md q R C m i j : old ≠ new → (0 ≤ i < R)%Z → (0 ≤ j < C)%Z →
  mixed old new md q R C (i * C + j) m ⊢
  sim (x <- mget m i j ;; y <- osl_int_set_precision old new x ;; mset m i j y) (a <== entry md i j ;; osl_int_set_precision_m old new a) (λ m' _, mixed old new md q R C (i * C + (j + 1)) m').
Proof.
  intros Hne Hi Hj. destruct (mget m i j) as [x| | |] eqn:E1; cbn [bind]; [|by destruct (mget_not_err m i j)|by iIntros "_"..].
  iIntros "H". iDestruct "H" as (cs1 cs2) "(A & B & %Sh & X & Y)". destruct (mget_inv _ _ _ _ _ _ Sh E1) as (_ & _ & Ex). set (k := Z.to_nat (i * C + j)) in *.
  iApply sim_heap. iApply wp_entry; [done|]. iFrame "A". iIntros "A". unfold osl_int_set_precision_m, osl_int_set_precision. replace (Z.eqb old new) with false by lia.
  assert (0 ≤ i * C + j)%Z as Hpos by nia. pose proof (concat_length _ _ _ Sh) as Hlen. unfold zlength in Hlen. assert (k < List.length (concat m))%nat as Hk by (eapply lookup_lt_Some; done).
  iDestruct (m_coefs_length with "X") as "[%L1 X]". rewrite take_length in L1. assert (List.length cs1 = k) as L1' by lia.
  rewrite (drop_S (concat m) x k Ex). destruct cs2 as [|c cs2]; cbn [m_coefs]. { iDestruct "Y" as "%F". done. } iDestruct "Y" as "[Cx Y]".
  assert (List.map Some (cs1 ++ c :: cs2) !! Z.to_nat (i * C + j) = Some (Some c)) as Ec. { fold k. rewrite map_app lookup_app_r; [|rewrite map_length; lia]. rewrite map_length L1' Nat.sub_diag. done. }
  iApply sim_heap. iApply wp_number_coef; [nia|exact Ec|]. iFrame "B Cx". iIntros "B Cx".
  (* the value is read, cleared and initialised *)
  destruct (osl_int_get_si old x) as [v| | |] eqn:Eg; cbn [bind sim]; [|iApply wpe_bind_l; iStopProof; apply wpe_lift|by iStopProof; iIntros "_"..].
  iApply sim_heap. iApply wp_lift; [done|]. iDestruct (m_coef_known with "Cx") as "[%Hold Cx]".
  assert (osl_int_clear old = Ok tt) as -> by by apply (pswitch_ok old). cbn [bind]. iApply sim_heap. iApply wp_clear_at; [nia|exact Ec|]. iFrame "B Cx". iIntros (c') "B".
  destruct (osl_int_is_precision_supported new) eqn:Hnew.
  - assert (osl_int_init_set_si new v = Ok v) as -> by by apply (pswitch_ok new). cbn [bind].
    destruct (mset m i j v) as [m'| | |] eqn:E2; cbn [sim]; [|by destruct (mset_not_err m i j v)|by iStopProof; iIntros "_"..]. destruct (mset_inv _ _ _ _ _ _ _ Sh E2) as (_ & _ & Em & Sh'). fold k in Em.
    iApply (wp_init_set_si new q (<[Z.to_nat (i * C + j) := Some c']> (List.map Some (cs1 ++ c :: cs2)))); [done|rewrite insert_length map_length app_length; cbn [List.length]; unfold k in L1'; lia|]. iFrame "B". iIntros (c2) "B Z".
    iExists (cs1 ++ [c2]), cs2. iFrame "A". iSplitL "B".
    { fold k. rewrite list_insert_insert. replace (<[k := Some c2]> (List.map Some (cs1 ++ c :: cs2))) with (List.map Some ((cs1 ++ [c2]) ++ cs2)); [done|].
      rewrite (map_app _ cs1 (c :: cs2)) insert_app_r_alt; [|rewrite map_length; lia]. rewrite map_length L1' Nat.sub_diag -app_assoc map_app. done. }
    iSplitR; [done|]. rewrite Em. replace (Z.to_nat (i * C + (j + 1))) with (Datatypes.S k) by (unfold k; lia). rewrite drop_insert_gt; [|lia]. iFrame "Y".
    rewrite (take_S_r _ _ v); [|by apply list_lookup_insert]. rewrite take_insert; [|lia]. iApply m_coefs_snoc. iFrame.
  - assert (osl_int_init_set_si new v = Err) as -> by by apply (pswitch_err new). cbn [bind sim]. iStopProof. by apply wpe_init_set_si.
Qed.
Lemma sim_set_precision_part p a x m n (Q : relation → unit → oprop) :
  a ↦ CBlock (BRel (bare x) m n) ∗ <affine> ⌜0 ≤ nrows x ∧ 0 ≤ ncols x⌝%Z ∗ M (m_matrix (rprec x) m (nrows x) (ncols x) (rm x)) ∗ (∀ x', M (m_part a x' n) -∗ Q x' tt) ⊢
  sim (set_precision_part p x) (if Z.eqb p (rprec (bare x)) then ret tt
            else zfor 0 (nrows (bare x)) (λ i, zfor 0 (ncols (bare x)) (λ j, a <== entry m i j ;; osl_int_set_precision_m (rprec (bare x)) p a)) ;;==
                 put a (BRel (with_prec (bare x) p []) m n)) Q.
Proof.
  iIntros "(A & %Hr & D & K)". unfold set_precision_part. cbn [bare with_m rprec nrows ncols]. destruct (Z.eqb_spec p (rprec x)) as [E|E]; cbn [negb].
  { iApply sim_ret. iApply "K". rewrite M_part. iExists m. by iFrame. }
  iApply sim_bind. unfold m_matrix at 1. destruct (_ || _) eqn:Ez.
  - iDestruct "D" as "%F". destruct F as [-> F]. rewrite F. iApply (sim_cfor (λ s, <affine> ⌜s = []⌝)).
    { intros i s Hi. iIntros "%Es". iApply (sim_cfor (λ s, <affine> ⌜s = []⌝)); [intros j s' Hj; lia|]. iSplitR; [done|]. by iIntros (s') "%Es'". }
    iSplitR; [done|]. iIntros (s') "%Es". subst s'. iApply sim_ok. iApply wp_put. iFrame "A". iIntros "A". iApply "K". rewrite M_part. iExists NULL. iFrame "A". iSplitR; [done|].
    unfold m_matrix. cbn [with_prec nrows ncols rm]. rewrite Ez. by rewrite M_nothing.
  - iDestruct "D" as (q) "(R & B & %Sh)". rewrite M_cell.
    iApply (sim_cfor_at (λ i s, mixed (rprec x) p m q (nrows x) (ncols x) (i * ncols x) s)); [lia| |].
    { intros i s Hi. iIntros "H". iApply (sim_cfor_at (λ j s, mixed (rprec x) p m q (nrows x) (ncols x) (i * ncols x + j) s)); [lia| |].
      - intros j s' Hj. by apply sim_mixed.
      - rewrite Z.add_0_r. iFrame "H". iIntros (s') "H". by replace ((i + 1) * ncols x)%Z with (i * ncols x + ncols x)%Z by lia. }
    iSplitL "R B". { iDestruct "B" as (cs) "[B C]". rewrite M_cell. iExists [], cs. cbn [Z.to_nat Z.mul take drop app m_coefs]. iFrame. rewrite M_nothing. done. }
    iIntros (s') "H". iDestruct "H" as (cs1 cs2) "(R & B & %Sh' & X & Y)". iApply sim_ok. iApply wp_put. iFrame "A". iIntros "A". iApply "K". rewrite M_part. iExists m. iFrame "A". iSplitR; [done|].
    unfold m_matrix. cbn [with_prec nrows ncols rm rprec]. rewrite Ez. iExists q. rewrite !M_beside M_cell M_nothing. iFrame "R". iSplitL; [|done].
    pose proof (concat_length _ _ _ Sh') as Hlen. unfold zlength in Hlen. rewrite take_ge; [|lia]. rewrite drop_ge; [|lia]. destruct cs2 as [|c cs2]; cbn [m_coefs]; iDestruct "Y" as "%F"; [|done].
    rewrite app_nil_r. iExists cs1. rewrite M_beside M_cell. iFrame.
Qed.
Lemma sim_set_precision_loop p l : ∀ a fuel (Q : list relation → unit → oprop), (List.length l < fuel)%nat →
  M (m_relation a l) ∗ (∀ l', M (m_relation a l') -∗ Q l' tt) ⊢ sim (mapM (set_precision_part p) l) (set_precision_loop fuel p a) Q.
Proof.
  induction l as [|x l IH]; intros a [|fuel] Q Hf; try (cbn in Hf; lia); cbn [mapM set_precision_loop].
  - iIntros "[H K]". iEval (rewrite M_relation_nil) in "H". iDestruct "H" as "%E". subst a. iApply sim_ret. iApply "K". by rewrite M_relation_nil.
  - iIntros "[H K]". iDestruct (M_relation_cons with "H") as (n) "[P R]". rewrite M_part. iDestruct "P" as (m) "(A & %Hr & D)". iDestruct (isnull_false with "A") as "[%Ea A]". rewrite Ea.
    iApply sim_heap. iApply wp_get_part. iFrame "A". iIntros "A". iApply sim_bind. iApply sim_set_precision_part. iFrame "A D". iSplitR; [done|]. iIntros (x') "P".
    iApply sim_map. iApply IH; [cbn in Hf; lia|]. iFrame "R". iIntros (l') "R". iApply "K". rewrite M_relation_cons. iExists n. iFrame.
Qed.
Lemma sim_set_precision p a l (Q : list relation → unit → oprop) : M (m_relation a l) ∗ (∀ l', M (m_relation a l') -∗ Q l' tt) ⊢ sim (osl_relation_set_precision p l) (osl_relation_set_precision_m p a) Q.
Proof. apply (sim_loop_on _ (List.length l)); [apply m_relation_size|]. intros n Hn. by apply sim_set_precision_loop. Qed.
Lemma M_relation_null a l : M (m_relation a l) ⊢ <affine> ⌜isnull a = match l with [] => true | _ => false end⌝ ∗ M (m_relation a l).
Proof. rewrite {1}M_own. iIntros "H". iDestruct "H" as (h) "[%Hh H]". iSplitR; [iPureIntro; eapply sees_relation_null; by apply sees_self|]. rewrite M_own. iExists h. by iFrame. Qed.
Lemma wp_get_head a x l (Q : _ → oprop) : M (m_relation a (x :: l)) ∗ (∀ m n, M (m_relation a (x :: l)) -∗ Q (bare x, m, n)) ⊢ wp (get_part a) Q.
Proof.
  iIntros "[H K]". iDestruct (M_relation_cons with "H") as (n) "[P R]". rewrite M_part. iDestruct "P" as (m) "(A & %Hr & D)". iApply wp_get_part. iFrame "A". iIntros "A". iApply "K". rewrite M_relation_cons. iExists n. iFrame "R".
  rewrite M_part. iExists m. by iFrame.
Qed.
Lemma sim_set_same_precision a b la lb (Q : list relation * list relation → unit → oprop) :
  M (m_relation a la) ∗ M (m_relation b lb) ∗ (∀ la' lb', M (m_relation a la') -∗ M (m_relation b lb') -∗ Q (la', lb') tt) ⊢
  sim (osl_relation_set_same_precision la lb) (osl_relation_set_same_precision_m a b) Q.
Proof.
  iIntros "(A & B & K)". unfold osl_relation_set_same_precision_m, osl_relation_set_same_precision. iDestruct (M_relation_null with "A") as "[%Ea A]". iDestruct (M_relation_null with "B") as "[%Eb B]". rewrite Ea Eb.
  destruct la as [|x la]; cbn [orb]. { iApply sim_ret. iApply ("K" with "A B"). } destruct lb as [|y lb]; cbn [orb]. { iApply sim_ret. iApply ("K" with "A B"). }
  iApply sim_heap. iApply wp_get_head. iFrame "A". iIntros (mx nx) "A". iApply sim_heap. iApply wp_get_head. iFrame "B". iIntros (my ny) "B". cbn [bare with_m rprec].
  destruct (Z.eqb (rprec x) (rprec y)); cbn [negb]. { iApply sim_ret. iApply ("K" with "A B"). }
  destruct (_ || _); [|destruct (_ || _); [|iApply sim_ret; iApply ("K" with "A B")]].
  - iApply sim_bind. iApply sim_set_precision. iFrame "A". iIntros (la') "A". iApply sim_map. iApply sim_set_precision. iFrame "B". iIntros (lb') "B". iApply ("K" with "A B").
  - iApply sim_bind. iApply sim_set_precision. iFrame "A". iIntros (la') "A". iApply sim_map. iApply sim_set_precision. iFrame "B". iIntros (lb') "B". iApply ("K" with "A B").
Qed.

(** ** Vectors *)
Lemma sim_aset a b p n l i y :
  vec_at a b (mkvec p n l) ⊢ sim (aset l i y) (renumber p (b, i) y) (λ l' _, vec_at a b (mkvec p n l')).
Proof.
  iIntros "V". destruct (aset l i y) as [l'| | |] eqn:E; cbn [sim]; [|by destruct (aset_not_err l i y)|by iStopProof; iIntros "_"..]. apply aset_inv in E as [Hi ->].
  iDestruct "V" as "(A & %Hl & D)". cbn [vsize vprec vv] in *. destruct (Z.eqb_spec n 0) as [E0|E0]; [lia|]. iApply (wp_renumber p b l); [done|]. iFrame "D". iIntros "D".
  unfold vec_at. cbn [vsize vprec vv]. replace (Z.eqb n 0) with false by lia. iFrame. iPureIntro. unfold zlength in *. by rewrite insert_length.
Qed.
Lemma wp_get_vec_at a b v (Q : _ → oprop) : vec_at a b v ∗ (vec_at a b v -∗ Q (vsize v, vprec v, b)) ⊢ wp (get_vector a) Q.
Proof. iIntros "[(A & L & D) K]". iApply wp_get_vec. iFrame "A". iIntros "A". iApply "K". iFrame. Qed.
Lemma sim_read h p b l i {D A} (g : Z → res D) (f : Z → oprog A) Q : (l ≠ [] → sees h (m_array p b l)) →
  own h ∗ (∀ x, own h -∗ sim (g x) (f x) Q) ⊢ sim (bind (aget l i) g) (pbind (number p (b, i)) f) Q.
Proof.
  intros S. destruct (aget l i) as [x| | |] eqn:E; cbn [bind]; [|by destruct (aget_not_err l i)|by iIntros "_"..]. iIntros "[H K]".
  pose proof (aget_nonempty _ _ _ E) as Hn. apply aget_inv in E as [Hi E]. iApply sim_heap. iApply wp_number_own; [by apply S|lia|done|]. iFrame "H". iIntros "H". by iApply "K".
Qed.
Lemma sim_zip op h a1 v1 a2 v2 (Q : vector → ptr → oprop) : sees h (m_vector a1 v1) → sees h (m_vector a2 v2) →
  own h ∗ (∀ v q, own h -∗ M (m_vector q v) -∗ Q v q) ⊢ sim (vector_zip op (Some v1) (Some v2)) (vector_zip_m op a1 a2) Q.
Proof.
  intros (b1 & E1 & Ea1 & L1 & S1)%sees_vector (b2 & E2 & Ea2 & L2 & S2)%sees_vector. iIntros "[H K]". unfold vector_zip_m, vector_zip. rewrite Ea1 Ea2. cbn [orb].
  iApply sim_heap. iApply wp_get_vec_own; [done|]. iFrame "H". iIntros "H". iApply sim_heap. iApply wp_get_vec_own; [done|]. iFrame "H". iIntros "H".
  destruct (_ || _) eqn:Eg; [iStopProof; apply sim_err|]. assert (vprec v1 = vprec v2) as Ep by lia. rewrite -Ep in S2.
  iApply sim_bind. iApply sim_vpmalloc. iIntros (a b l) "V". iApply sim_heap. iApply wp_get_vec_at. iFrame "V". iIntros "V". cbn [vsize vprec vv].
  iApply sim_bind. iApply (sim_cfor (λ l, own h ∗ vec_at a b (mkvec (vprec v1) (vsize v1) l))).
  { intros i s _. iIntros "[H V]". iApply sim_read; [done|]. iFrame "H". iIntros (x) "H". iApply sim_read; [done|]. iFrame "H". iIntros (y) "H". iApply sim_bind. iApply sim_lift. iIntros (z) "_".
    iApply sim_mono. iSplitL "V"; [by iApply sim_aset|]. iIntros (s' u) "_ V". iFrame. }
  iFrame "H V". iIntros (l') "[H V]". iApply sim_ret. iApply ("K" with "H"). rewrite M_vector. by iExists b.
Qed.
Lemma sim_mul_scalar h a1 v1 scalar (Q : vector → ptr → oprop) : sees h (m_vector a1 v1) →
  own h ∗ (∀ v q, own h -∗ M (m_vector q v) -∗ Q v q) ⊢ sim (osl_vector_mul_scalar (Some v1) scalar) (osl_vector_mul_scalar_m a1 scalar) Q.
Proof.
  intros (b1 & E1 & Ea1 & L1 & S1)%sees_vector. iIntros "[H K]". unfold osl_vector_mul_scalar_m, osl_vector_mul_scalar.
  iApply sim_heap. iApply wp_get_vec_own; [done|]. iFrame "H". iIntros "H".
  iApply sim_bind. iApply sim_vpmalloc. iIntros (a b l) "V". iApply sim_heap. iApply wp_get_vec_at. iFrame "V". iIntros "V". cbn [vsize vprec vv].
  iApply sim_bind. iApply (sim_cfor (λ l, own h ∗ vec_at a b (mkvec (vprec v1) (vsize v1) l))).
  { intros i s _. iIntros "[H V]". iApply sim_read; [done|]. iFrame "H". iIntros (x) "H". iApply sim_bind. iApply sim_lift. iIntros (z) "_".
    iApply sim_mono. iSplitL "V"; [by iApply sim_aset|]. iIntros (s' u) "_ V". iFrame. }
  iFrame "H V". iIntros (l') "[H V]". iApply sim_ret. iApply ("K" with "H"). rewrite M_vector. by iExists b.
Qed.
Lemma sim_add_scalar h a1 v1 scalar (Q : vector → ptr → oprop) : sees h (m_vector a1 v1) →
  own h ∗ (∀ v q, own h -∗ M (m_vector q v) -∗ Q v q) ⊢ sim (osl_vector_add_scalar (Some v1) scalar) (osl_vector_add_scalar_m a1 scalar) Q.
Proof.
  intros (b1 & E1 & Ea1 & L1 & S1)%sees_vector. iIntros "[H K]". unfold osl_vector_add_scalar_m, osl_vector_add_scalar. rewrite Ea1.
  iApply sim_heap. iApply wp_get_vec_own; [done|]. iFrame "H". iIntros "H". destruct (_ <? 2); [iStopProof; apply sim_err|]. cbn zeta.
  iApply sim_bind. iApply sim_vpmalloc. iIntros (a b l) "V". iApply sim_heap. iApply wp_get_vec_at. iFrame "V". iIntros "V". cbn [vsize vprec vv].
  iApply sim_bind. iApply (sim_cfor (λ l, own h ∗ vec_at a b (mkvec (vprec v1) (vsize v1) l))).
  { intros i s _. iIntros "[H V]". iApply sim_read; [done|]. iFrame "H". iIntros (x) "H". iApply sim_bind. iApply sim_lift. iIntros (z) "_".
    iApply sim_mono. iSplitL "V"; [by iApply sim_aset|]. iIntros (s' u) "_ V". iFrame. }
  iFrame "H V". iIntros (l') "[H V]".
  assert (∀ f : Z → res (list Z), (x <- aget (vv v1) (vsize v1 - 1) ;; y <- osl_int_add_si (vprec v1) x scalar ;; v' <- aset l' (vsize v1 - 1) y ;; Ok (mkvec (vprec v1) (vsize v1) v')) =
    bind (x <- aget (vv v1) (vsize v1 - 1) ;; y <- osl_int_add_si (vprec v1) x scalar ;; aset l' (vsize v1 - 1) y) (λ v', Ok (mkvec (vprec v1) (vsize v1) v'))) as Eb.
  { intros _. destruct (aget _ _); cbn; try done. destruct (osl_int_add_si _ _ _); cbn; done. }
  rewrite (Eb (λ _, UB)). iApply sim_bind. iApply sim_read; [done|]. iFrame "H". iIntros (x) "H". iApply sim_bind. iApply sim_lift. iIntros (z) "_".
  iApply sim_mono. iSplitL "V"; [by iApply sim_aset|]. iIntros (s' u) "_ V". iApply sim_ret. iApply ("K" with "H"). rewrite M_vector. by iExists b.
Qed.
Definition tagged (tag : Z) (v : vector) : res vector :=
  if vsize v <? 1 then Err else x <- osl_int_set_si (vprec v) tag ;; l <- aset (vv v) 0 x ;; Ok (mkvec (vprec v) (vsize v) l).
Lemma sim_tag tag a v (Q : vector → unit → oprop) : M (m_vector a v) ∗ (∀ v', M (m_vector a v') -∗ Q v' tt) ⊢ sim (tagged tag v) (vector_tag_m tag a) Q.
Proof.
  iIntros "[V K]". rewrite M_vector. iDestruct "V" as (b) "V". unfold vector_tag_m, tagged. iAssert (<affine> ⌜isnull a = false⌝ ∗ vec_at a b v) with "[V]" as "[%Ea V]".
  { iDestruct "V" as "(A & L & D)". iDestruct (isnull_false with "A") as "[%E A]". iSplitR; [done|]. iFrame. }
  rewrite Ea. iApply sim_heap. iApply wp_get_vec_at. iFrame "V". iIntros "V". destruct (_ <? 1); [iStopProof; apply sim_err|].
  iApply sim_bind. iApply sim_lift. iIntros (z) "_". iApply sim_map. iApply sim_mono. iAssert (vec_at a b (mkvec (vprec v) (vsize v) (vv v))) with "[V]" as "V"; [by destruct v|]. iSplitL "V"; [by iApply sim_aset|]. iIntros (l' u) "_ V". destruct u. iApply "K". rewrite M_vector. iExists b. by destruct v.
Qed.
End MAT.
