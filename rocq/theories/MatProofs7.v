(** * MatProofs7: comparison, extension, precision; vectors *)
From stdpp Require Import gmap.
From iris.proofmode Require Import tactics.
From Coq Require Import ZifyBool ZifyNat.
From Verif Require Import Base IntModel VectorModel RelationModel Spec RelSpec LoopLemmas IntProofs RelationProofs HeapModel HeapObjects HeapSpec HeapLogic HeapProofs PayloadModel PayloadSpec PayloadProofs PayloadProofs2 PayloadProofs5 MatModel MatSpec MatProofs MatProofs2 MatProofs3 MatProofs4 MatProofs5 MatProofs6.
Local Open Scope string_scope.
Local Open Scope list_scope.
Local Open Scope Z_scope.
Local Open Scope bi_scope.
Notation loop := HeapModel.loop.

Section MAT.
Context {cfg : config} {al : Allocator obj}.

(** ** What a memory holds at an address is determined *)
Lemma sees_coef_det h p c z z' : sees h (m_coef p c z) → sees h (m_coef p c z') → z = z'.
Proof.
  intros [_ S]%sees_beside [_ S']%sees_beside. destruct (Z.eqb p PRECISION_MP).
  - apply sees_somewhere in S as ([q d] & [->%sees_nothing [[Eq _]%sees_cell [Ed _]%sees_cell]%sees_beside]%sees_beside).
    apply sees_somewhere in S' as ([q' d'] & [[= <-]%sees_nothing [[Eq' _]%sees_cell [Ed' _]%sees_cell]%sees_beside]%sees_beside). congruence.
  - apply sees_nothing in S, S'. congruence.
Qed.
Lemma sees_coefs_det h p cs : ∀ l l', sees h (m_coefs p cs l) → sees h (m_coefs p cs l') → l = l'.
Proof.
  induction cs as [|c cs IH]; intros [|z l] [|z' l']; cbn [m_coefs]; try done; try (by intros ?%sees_nothing); try (by intros _ ?%sees_nothing).
  intros [A B]%sees_beside [A' B']%sees_beside. rewrite (sees_coef_det _ _ _ _ _ A A'). by rewrite (IH l l').
Qed.
Lemma map_Some_inj {A} : ∀ l l' : list A, List.map Some l = List.map Some l' → l = l'.
Proof. induction l as [|c l IH]; intros [|c' l']; cbn; try done. intros [= -> H]. by rewrite (IH l'). Qed.
Lemma sees_array_det h p b l l' : sees h (m_array p b l) → sees h (m_array p b l') → l = l'.
Proof.
  intros (cs & [[E _]%sees_cell S]%sees_beside)%sees_somewhere (cs' & [[E' _]%sees_cell S']%sees_beside)%sees_somewhere. rewrite E in E'. injection E' as E'.
  apply map_Some_inj in E' as <-.
  by eapply sees_coefs_det.
Qed.
Lemma concat_inj C (m m' : list (list Z)) : (0 < C)%Z → Forall (λ row, zlength row = C) m → Forall (λ row, zlength row = C) m' → concat m = concat m' → m = m'.
Proof.
  intros HC H. revert m'. induction H as [|r m Hr Hm IH]; intros m' H'; destruct H' as [|r' m' Hr' Hm']; cbn [concat]; try done.
  - intros E. symmetry in E. apply app_eq_nil in E as [-> _]. unfold zlength in Hr'. cbn in Hr'. lia.
  - intros E. apply app_eq_nil in E as [-> _]. unfold zlength in Hr. cbn in Hr. lia.
  - intros E. apply app_inj_1 in E as [-> E]; [|unfold zlength in *; lia]. by rewrite (IH m').
Qed.
Lemma sees_matrix_det h p m R C mat mat' : (0 ≤ R)%Z → (0 ≤ C)%Z → sees h (m_matrix p m R C mat) → sees h (m_matrix p m R C mat') → mat = mat'.
Proof.
  intros HR HC. unfold m_matrix. destruct (_ || _) eqn:Ez.
  - intros [_ ->]%sees_nothing [_ ->]%sees_nothing. done.
  - intros (q & [[E _]%sees_cell [S [L F]%sees_nothing]%sees_beside]%sees_beside)%sees_somewhere (q' & [[E' _]%sees_cell [S' [L' F']%sees_nothing]%sees_beside]%sees_beside)%sees_somewhere.
    rewrite E in E'. injection E' as E'. apply (f_equal (λ l, l !! 0%nat)) in E'. change 0%nat with (Z.to_nat 0) in E'. rewrite !row_starts_lookup in E'; [|lia|lia]. injection E' as <-.
    apply (concat_inj C); [lia|done|done|]. by eapply sees_array_det.
Qed.
Lemma sees_part_det h a r n r' n' : sees h (m_part a r n) → sees h (m_part a r' n') → (r = r' ∧ n = n')%type.
Proof.
  intros (m & E & _ & HR & HC & S)%sees_part (m' & E' & _ & _ & _ & S')%sees_part. rewrite E in E'.
  assert (bare r = bare r') as Eb by congruence. assert (m = m') as <- by congruence. assert (n = n') as <- by congruence. split; [|done].
  destruct r as [t p R C o i l pa x], r' as [t' p' R' C' o' i' l' pa' x']. unfold bare, with_m in Eb. cbn [rtype rprec nrows ncols nout nin nloc npar rm] in *. injection Eb as <- <- <- <- <- <- <- <-. f_equal. exact (sees_matrix_det _ _ _ _ _ _ _ HR HC S S').
Qed.
Lemma sees_mat h p m R C x : (0 ≤ R)%Z → (0 ≤ C)%Z → sees h (m_matrix p m R C x) → LoopLemmas.mat R C x.
Proof.
  intros HR HC. unfold m_matrix. destruct (_ || _) eqn:Ez.
  - intros [_ ->]%sees_nothing. split_and!; [done|done|done|]. intros. lia.
  - intros (q & [_ [_ S%sees_nothing]%sees_beside]%sees_beside)%sees_somewhere. split_and!; [done|done|lia|done].
Qed.
Lemma part_equal_self h a r n : sees h (m_part a r n) → osl_relation_part_equal r r = Ok true.
Proof.
  intros (m & _ & _ & HR & HC & S)%sees_part. unfold osl_relation_part_equal. rewrite !Z.eqb_refl. cbn [negb orb]. pose proof (sees_mat _ _ _ _ _ _ HR HC S) as Hm.
  rewrite cforall_true; [done|]. intros i Hi. rewrite cforall_true; [done|]. intros j Hj. pose proof (mget_ok _ _ _ i j Hm Hi Hj) as E. rewrite E. cbn [bind].
  destruct (sees_matrix _ _ _ _ _ _ _ _ _ S E) as (q & _ & Sq & Sh). destruct (mget_inv _ _ _ _ _ _ Sh E) as (_ & _ & Ex).
  unfold osl_int_ne, osl_int_eq. rewrite pswitch_ok; [|eapply sees_known; [done|]; intros X; by rewrite X in Ex]. cbn [bind]. by rewrite Z.eqb_refl.
Qed.

(** ** Comparison *)
Lemma wp_read_cell h p m R C mat i j x (Q : _ → oprop) : sees h (m_matrix p m R C mat) → mget mat i j = Ok x →
  own h ∗ (∀ a, own h -∗ (∀ Q', own h ∗ (own h -∗ Q' x) -∗ wp (number p a) Q') -∗ Q a) ⊢ wp (entry m i j) Q.
Proof.
  intros S E. destruct (sees_matrix _ _ _ _ _ _ _ _ _ S E) as (q & Em & Sq & Sh). destruct (mget_inv _ _ _ _ _ _ Sh E) as (Hi & Hj & Ex).
  iIntros "[H K]". iApply wp_entry_own; [done|done|]. iFrame "H". iIntros "H". iApply ("K" with "H"). iIntros (Q') "[H K]". iApply wp_number_own; [done|nia|done|]. iFrame.
Qed.
Lemma sim_part_equal h a1 r1 n1 a2 r2 n2 (Q : bool → bool → oprop) : sees h (m_part a1 r1 n1) → sees h (m_part a2 r2 n2) →
  own h ∗ (∀ b, own h -∗ Q b b) ⊢ sim (osl_relation_part_equal r1 r2) (osl_relation_part_equal_m a1 a2) Q.
Proof.
  intros S1 S2. unfold osl_relation_part_equal_m. destruct (Z.eqb_spec a1 a2) as [<-|Hne].
  { destruct (sees_part_det _ _ _ _ _ _ S1 S2) as [<- _]. rewrite (part_equal_self _ _ _ _ S1). iIntros "[H K]". iApply sim_ret. by iApply "K". }
  destruct (sees_part _ _ _ _ S1) as (m1 & E1 & Ea1 & HR1 & HC1 & X1). destruct (sees_part _ _ _ _ S2) as (m2 & E2 & Ea2 & HR2 & HC2 & X2). rewrite Ea1 Ea2. cbn [negb andb orb].
  iIntros "[H K]". iApply sim_heap. iApply wp_get_part_own; [done|]. iFrame "H". iIntros "H". iApply sim_heap. iApply wp_get_part_own; [done|]. iFrame "H". iIntros "H".
  unfold osl_relation_part_equal. cbn [bare with_m rtype rprec nrows ncols nout nin nloc npar]. destruct (_ || _) eqn:Eg; [iApply sim_ret; by iApply "K"|].
  assert (rprec r1 = rprec r2) as Ep by lia. rewrite -Ep in X2.
  iApply (sim_cforall (own h)); [|iFrame]. intros i Qi Hi. iIntros "[H K]". iApply (sim_cforall (own h)); [|iFrame]. intros j Qj Hj.
  destruct (mget (rm r1) i j) as [x| | |] eqn:G1; cbn [bind]; [|by destruct (mget_not_err (rm r1) i j)|by iIntros "_"..].
  destruct (mget (rm r2) i j) as [y| | |] eqn:G2; cbn [bind]; [|by destruct (mget_not_err (rm r2) i j)|by iIntros "_"..].
  iIntros "[H K]". iApply sim_heap. iApply (wp_read_cell _ _ _ _ _ _ _ _ _ _ X1 G1). iFrame "H". iIntros (p) "H P". iApply sim_heap. iApply (wp_read_cell _ _ _ _ _ _ _ _ _ _ X2 G2). iFrame "H". iIntros (q) "H R".
  iApply sim_heap. iApply "P". iFrame "H". iIntros "H". iApply sim_heap. iApply "R". iFrame "H". iIntros "H". iApply sim_bind. iApply sim_lift. iIntros (ne) "_". iApply sim_ret. by iApply "K".
Qed.
Lemma sim_equal_loop h l1 : ∀ l2 a1 a2 fuel (Q : bool → bool → oprop), sees h (m_relation a1 l1) → sees h (m_relation a2 l2) → (List.length l1 < fuel)%nat →
  own h ∗ (∀ b, own h -∗ Q b b) ⊢ sim (osl_relation_equal l1 l2) (equal_loop fuel a1 a2) Q.
Proof.
  induction l1 as [|r1 l1 IH]; intros l2 a1 a2 [|fuel] Q S1 S2 Hf; try (cbn in Hf; lia); cbn [equal_loop]; rewrite (sees_relation_null _ _ _ S1) (sees_relation_null _ _ _ S2).
  - iIntros "[H K]". destruct l2; cbn [osl_relation_equal orb andb]; iApply sim_ret; by iApply "K".
  - destruct l2 as [|r2 l2]; cbn [osl_relation_equal orb andb]. { iIntros "[H K]". iApply sim_ret. by iApply "K". }
    destruct (sees_relation_cons _ _ _ _ S1) as (n1 & P1 & T1). destruct (sees_relation_cons _ _ _ _ S2) as (n2 & P2 & T2).
    destruct (sees_part _ _ _ _ P1) as (m1 & E1 & _). destruct (sees_part _ _ _ _ P2) as (m2 & E2 & _).
    iIntros "[H K]". iApply sim_bind. iApply sim_part_equal; [done|done|]. iFrame "H". iIntros (b) "H". destruct b; [|iApply sim_ret; by iApply "K"].
    iApply sim_heap. iApply wp_get_part_own; [done|]. iFrame "H". iIntros "H". iApply sim_heap. iApply wp_get_part_own; [done|]. iFrame "H". iIntros "H".
    iApply IH; [done|done|cbn in Hf; lia|]. iFrame.
Qed.
Lemma sim_equal h a1 l1 a2 l2 (Q : bool → bool → oprop) : sees h (m_relation a1 l1) → sees h (m_relation a2 l2) →
  own h ∗ (∀ b, own h -∗ Q b b) ⊢ sim (osl_relation_equal l1 l2) (osl_relation_equal_m a1 a2) Q.
Proof. intros S1 S2. apply (sim_loop_on _ (List.length l1)); [eapply own_size; [apply m_relation_size|done]|]. intros n Hn. by apply sim_equal_loop. Qed.

(** ** Extension *)
Lemma m_matrix_range p md R C m : (0 ≤ R)%Z → (0 ≤ C)%Z → M (m_matrix p md R C m) ⊢ <affine> ⌜LoopLemmas.mat R C m ∧ (0 < R ∧ 0 < C → osl_int_is_precision_supported p = true)⌝%Z%type ∗ M (m_matrix p md R C m).
Proof.
  intros HR HC. rewrite {1}M_own. iIntros "H". iDestruct "H" as (h) "[%Hh H]". pose proof (sees_self _ _ Hh) as S. pose proof (sees_mat _ _ _ _ _ _ HR HC S) as Hm. iSplitR; [|rewrite M_own; iExists h; by iFrame].
  iPureIntro. split; [done|]. intros [H1 H2]. pose proof (mget_ok _ _ _ 0 0 Hm (conj (Z.le_refl 0) H1) (conj (Z.le_refl 0) H2)) as E.
  destruct (sees_matrix _ _ _ _ _ _ _ _ _ S E) as (q & _ & Sq & Sh). destruct (mget_inv _ _ _ _ _ _ Sh E) as (_ & _ & Ex). eapply sees_known; [done|]. intros X. by rewrite X in Ex.
Qed.
Lemma sim_set_cell p md R C m i j z : (0 ≤ i < R)%Z → (0 ≤ j < C)%Z →
  M (m_matrix p md R C m) ⊢ sim (x <- osl_int_set_si p z ;; mset m i j x) (a <== entry md i j ;; osl_int_set_si_m p a z) (λ m' _, M (m_matrix p md R C m')).
Proof.
  intros Hi Hj. iIntros "D". iDestruct (m_matrix_range with "D") as "[%G D]"; [lia|lia|]. destruct G as [_ Hp]. specialize (Hp ltac:(lia)).
  assert (osl_int_set_si p z = Ok z) as Ez by by apply (pswitch_ok p). rewrite Ez. cbn [bind].
  destruct (mset m i j z) as [m'| | |] eqn:E2; cbn [sim]; [|by destruct (mset_not_err m i j z)|by iStopProof; iIntros "_"..].
  iDestruct (m_matrix_open _ _ _ _ _ _ _ _ _ E2 with "D") as (qd) "(%Sd & A & B & K)". destruct (mset_inv _ _ _ _ _ _ _ Sd E2) as (Hi' & Hj' & Ec & Sd').
  iApply wp_bind. iApply wp_entry; [done|]. iFrame "A". iIntros "A". iApply wp_bind. iApply (wp_lift _ z); [done|].
  iApply (wp_renumber p qd (concat m)); [rewrite (concat_length _ _ _ Sd); nia|]. iFrame "B". iIntros "B". rewrite -Ec. iApply ("K" with "[//] A B").
Qed.
Lemma sim_extend_part h a r n dim (Q : relation → ptr → oprop) : sees h (m_part a r n) →
  own h ∗ (∀ r' b, own h -∗ M (m_part b r' NULL) -∗ Q r' b) ⊢ sim (extend_part (rprec r) r dim) (extend_part_m (rprec r) a dim) Q.
Proof.
  intros (m & E & Ea & HR & HC & S)%sees_part. iIntros "[H K]". unfold extend_part_m, extend_part. iApply sim_heap. iApply wp_get_part_own; [done|]. iFrame "H". iIntros "H". cbn [bare with_m rprec nrows ncols rtype nout nin nloc npar].
  destruct (_ <? _) eqn:Ed; [iStopProof; apply sim_err|]. cbn zeta. set (off := (dim - nout r)%Z).
  iApply sim_bind. iApply sim_new. iIntros (b mt mat) "%Ht T D". cbn [rm nrows ncols rprec with_m]. iApply sim_heap. iApply wp_get_part. iFrame "T". iIntros "T". cbn [head rprec nrows ncols].
  iApply sim_heap. iApply wp_put. iFrame "T". iIntros "T".
  iApply sim_bind. iApply (sim_cfor (λ m, own h ∗ M (m_matrix (rprec r) mt (nrows r + off) (ncols r + off) m))).
  { intros j s _. iIntros "[H D]". iApply sim_bind. iApply sim_copies; [done|]. iFrame. iIntros (d) "H D".
    iApply (sim_copies _ _ _ _ _ _ _ _ _ _ _ _ (λ _, j) (λ j, (j - off)%Z) (λ _, j) (λ j, j)); [done|]. iFrame. iIntros (d') "H D". iFrame. }
  iFrame "H D". iIntros (m') "[H D]".
  iApply sim_bind. iApply (sim_cfor (λ m, M (m_matrix (rprec r) mt (nrows r + off) (ncols r + off) m))).
  { intros i s Hi. iIntros "D". iApply (sim_cfor (λ m, M (m_matrix (rprec r) mt (nrows r + off) (ncols r + off) m))).
    - intros j s' Hj. destruct (_ =? _); [apply sim_set_cell; lia|]. iIntros "D". iApply sim_ret. iFrame.
    - iFrame "D". iIntros (d) "D". iFrame. }
  iFrame "D". iIntros (m'') "D". iApply sim_ret. iApply ("K" with "H"). rewrite M_part. iExists mt. iFrame "T D". done.
Qed.
Lemma sim_extend_rest h p l : ∀ a prev x res0 dim fuel (Q : list relation → ptr → oprop), Forall (λ r, rprec r = p) l → sees h (m_relation a l) → (List.length l < fuel)%nat →
  own h ∗ M (m_part prev x NULL) ∗ (∀ l', own h -∗ M (m_relation prev (x :: l')) -∗ Q l' res0) ⊢
  sim (mapM (λ part, extend_part p part dim) l) (extend_loop fuel p a dim false res0 prev) Q.
Proof.
  induction l as [|r l IH]; intros a prev x res0 dim [|fuel] Q Hp Hs Hf; try (cbn in Hf; lia); cbn [mapM extend_loop]; rewrite (sees_relation_null _ _ _ Hs).
  - iIntros "(H & P & K)". iApply sim_ret. iApply ("K" with "H"). by iApply M_relation_one.
  - pose proof (Forall_inv Hp) as Hr. apply Forall_inv_tail in Hp. cbn beta in Hr. subst p. destruct (sees_relation_cons _ _ _ _ Hs) as (n & Sp & Sl). destruct (sees_part _ _ _ _ Sp) as (m & E & _). iIntros "(H & P & K)".
    iApply sim_bind. iApply sim_extend_part; [done|]. iFrame "H". iIntros (r' b) "H B". iApply sim_heap. iApply wp_get_part_own; [done|]. iFrame "H". iIntros "H".
    iApply sim_heap. rewrite (M_part prev). iDestruct "P" as (mp) "(A & %Hx & D)". iApply wp_bind. iApply wp_get_part. iFrame "A". iIntros "A". iApply wp_put. iFrame "A". iIntros "A".
    iApply sim_map. iApply (IH n b r'); [done|done|cbn in Hf; lia|]. iFrame "H B". iIntros (l') "H B". iApply ("K" with "H"). rewrite (M_relation_cons prev). iExists b. iFrame "B". rewrite M_part. iExists mp. by iFrame.
Qed.
Lemma sim_extend_output h a r l dim (Q : list relation → ptr → oprop) : Forall (λ x, rprec x = rprec r) l → sees h (m_relation a (r :: l)) →
  own h ∗ (∀ l' q, own h -∗ M (m_relation q l') -∗ Q l' q) ⊢ sim (osl_relation_extend_output (r :: l) dim) (osl_relation_extend_output_m a dim) Q.
Proof.
  intros Hp Hs. destruct (sees_relation_cons _ _ _ _ Hs) as (n & Sp & Sl). destruct (sees_part _ _ _ _ Sp) as (m & E & Ea & _). iIntros "[H K]". unfold osl_relation_extend_output_m.
  iApply sim_heap. iApply wp_get_part_own; [done|]. iFrame "H". iIntros "H". cbn [bare with_m rprec]. iStopProof. rewrite bi.sep_comm.
  apply (sim_loop_on _ (List.length (r :: l))); [eapply own_size; [apply m_relation_size|done]|]. intros [|k] Hk; [lia|]. iIntros "[H K]". cbn [extend_loop osl_relation_extend_output mapM]. rewrite Ea.
  iApply sim_bind. iApply sim_extend_part; [done|]. iFrame "H". iIntros (r' b) "H B". iApply sim_heap. iApply wp_get_part_own; [done|]. iFrame "H". iIntros "H".
  iApply sim_map. iApply (sim_extend_rest h (rprec r) l n b r'); [done|done|cbn in Hk; lia|]. iFrame "H B". iIntros (l') "H B". iApply ("K" with "H B").
Qed.
End MAT.
