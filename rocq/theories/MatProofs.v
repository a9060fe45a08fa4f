(** * MatProofs: coefficients and matrices in memory, tools and first proofs *)
From stdpp Require Import gmap.
From iris.proofmode Require Import tactics.
From Coq Require Import ZifyBool ZifyNat.
From Verif Require Import Base IntModel VectorModel RelationModel HeapModel HeapObjects HeapSpec HeapLogic HeapProofs PayloadModel PayloadSpec PayloadProofs PayloadProofs2 MatModel MatSpec.
Local Open Scope string_scope.
Local Open Scope list_scope.
Local Open Scope Z_scope.
Local Open Scope bi_scope.

(** ** A program follows a computation on values *)
(** If the computation gives [b], the program ends with [Q b]; if it stops with an error, so does the program. *)
Definition sim {A B} (v : res B) (c : oprog A) (Q : B → A → oprop) : oprop :=
  match v with Ok b => wp c (Q b) | Err => wpe c | _ => True end.
Section SIM.
Context {cfg : config} {al : Allocator obj}.

Lemma sim_mono {A B} (v : res B) (c : oprog A) Q R : sim v c Q ∗ (∀ b a, <affine> ⌜v = Ok b⌝ -∗ Q b a -∗ R b a) ⊢ sim v c R.
Proof.
  destruct v as [b| | |]; cbn.
  - iIntros "[H K]". iApply wp_wand. iFrame "H". iIntros (a) "H". by iApply ("K" with "[//]").
  - apply wpe_frame.
  - by iIntros "_".
  - by iIntros "_".
Qed.
Lemma sim_bind {A B C D} (v : res B) (g : B → res D) (c : oprog A) (f : A → oprog C) Q :
  sim v c (λ b a, sim (g b) (f a) Q) ⊢ sim (bind v g) (pbind c f) Q.
Proof.
  destruct v as [b| | |]; cbn.
  - destruct (g b); cbn; [apply wp_bind|apply wpe_bind|by iIntros "_"..].
  - apply wpe_bind_l.
  - by iIntros "_".
  - by iIntros "_".
Qed.
Lemma sim_heap {A B C} (v : res B) (c : oprog A) (f : A → oprog C) Q : wp c (λ a, sim v (f a) Q) ⊢ sim v (pbind c f) Q.
Proof. destruct v; cbn; [apply wp_bind|apply wpe_bind|by iIntros "_"..]. Qed.
Lemma sim_pure {A B D} (v : res B) (g : B → res D) (c : oprog A) Q :
  (∀ b, <affine> ⌜v = Ok b⌝ -∗ sim (g b) c Q) ∗ <affine> ⌜v ≠ Err⌝ ⊢ sim (bind v g) c Q.
Proof. destruct v; cbn; iIntros "[H %E]"; [by iApply "H"|done|done|done]. Qed.
Lemma sim_ret {A B} (b : B) (a : A) Q : Q b a ⊢ sim (Ok b) (ret a) Q.
Proof. apply wp_ret. Qed.
Lemma sim_err {A B} P Q : P ⊢ sim (A := A) (B := B) Err (lift Err) Q.
Proof. apply wpe_lift. Qed.
Lemma sim_lift {B} (v : res B) (Q : B → B → oprop) : (∀ b, <affine> ⌜v = Ok b⌝ -∗ Q b b) ⊢ sim v (lift v) Q.
Proof.
  destruct v as [b| | |]; cbn.
  - iIntros "H". iApply wp_lift; [done|]. by iApply "H".
  - apply wpe_lift.
  - by iIntros "_".
  - by iIntros "_".
Qed.
Lemma sim_UB {A B} P (c : oprog A) Q : P ⊢ sim (B := B) UB c Q.
Proof. by iIntros "_". Qed.

(** Loops *)
Lemma sim_for {S} (I : S → oprop) (f : Z → S → res S) (g : Z → oprog unit) k : ∀ i s Q,
  (∀ j s, (i ≤ j < i + Z.of_nat k)%Z → I s ⊢ sim (f j s) (g j) (λ s' _, I s')) →
  I s ∗ (∀ s', I s' -∗ Q s' tt) ⊢ sim (for_loop k i f s) (zfor_loop k i g) Q.
Proof.
  induction k as [|k IH]; intros i s Q H; cbn [for_loop zfor_loop]; iIntros "[H K]".
  - iApply sim_ret. by iApply "K".
  - iApply sim_bind. iApply sim_mono. iSplitL "H". { iApply (H i s with "H"). lia. }
    iIntros (s' u) "_ H". iApply IH; [|iFrame]. intros j s0 Hj. apply H. lia.
Qed.
Lemma sim_cfor {S} (I : S → oprop) (f : Z → S → res S) (g : Z → oprog unit) lo hi s Q :
  (∀ j s, (lo ≤ j < hi)%Z → I s ⊢ sim (f j s) (g j) (λ s' _, I s')) →
  I s ∗ (∀ s', I s' -∗ Q s' tt) ⊢ sim (cfor lo hi f s) (zfor lo hi g) Q.
Proof. intros H. apply sim_for. intros j s0 Hj. apply H. lia. Qed.
Lemma sim_forall (P : oprop) (f : Z → res bool) (g : Z → oprog bool) k : ∀ i Q,
  (∀ j Q', (i ≤ j < i + Z.of_nat k)%Z → P ∗ (∀ b, P -∗ Q' b b) ⊢ sim (f j) (g j) Q') →
  P ∗ (∀ b, P -∗ Q b b) ⊢ sim (forall_loop k i f) (zall_loop k i g) Q.
Proof.
  induction k as [|k IH]; intros i Q H; cbn [forall_loop zall_loop]; iIntros "[H K]".
  - iApply sim_ret. by iApply "K".
  - iApply sim_bind. iApply H; [lia|]. iFrame "H". iIntros (b) "H". destruct b; [|iApply sim_ret; by iApply "K"].
    iApply IH; [|iFrame]. intros j Q' Hj. apply H. lia.
Qed.
Lemma sim_cforall (P : oprop) (f : Z → res bool) (g : Z → oprog bool) lo hi Q :
  (∀ j Q', (lo ≤ j < hi)%Z → P ∗ (∀ b, P -∗ Q' b b) ⊢ sim (f j) (g j) Q') →
  P ∗ (∀ b, P -∗ Q b b) ⊢ sim (cforall lo hi f) (zall lo hi g) Q.
Proof. intros H. apply sim_forall. intros j Q' Hj. apply H. lia. Qed.
(** A loop with its own invariant. *)
Lemma wp_zfor_loop (I : Z → oprop) f k : ∀ i (Q : _ → oprop),
  (∀ j, (i ≤ j < i + Z.of_nat k)%Z → I j ⊢ wp (f j) (λ _, I (j + 1)%Z)) →
  I i ∗ (I (i + Z.of_nat k)%Z -∗ Q tt) ⊢ wp (zfor_loop k i f) Q.
Proof.
  induction k as [|k IH]; intros i Q H; cbn [zfor_loop].
  - rewrite Z.add_0_r. iIntros "[H K]". iApply wp_ret. by iApply "K".
  - iIntros "[H K]". iApply wp_bind. iApply wp_wand. iSplitL "H". { iApply (H i with "H"). lia. }
    iIntros (u) "H". iApply IH; [intros j Hj; apply H; lia|]. iFrame "H". iIntros "H". iApply "K".
    by replace (i + Z.of_nat (S k))%Z with (i + 1 + Z.of_nat k)%Z by lia.
Qed.
Lemma wp_zfor (I : Z → oprop) f lo hi (Q : _ → oprop) : (lo ≤ hi)%Z →
  (∀ j, (lo ≤ j < hi)%Z → I j ⊢ wp (f j) (λ _, I (j + 1)%Z)) → I lo ∗ (I hi -∗ Q tt) ⊢ wp (zfor lo hi f) Q.
Proof.
  intros Hl H. unfold zfor. replace (I hi) with (I (lo + Z.of_nat (Z.to_nat (hi - lo)))%Z) by (f_equal; lia).
  apply wp_zfor_loop. intros j Hj. apply H. lia.
Qed.

(** ** Coefficients *)
Lemma supported_mp p : osl_int_is_precision_supported p = true → is_mp p = Z.eqb p PRECISION_MP.
Proof.
  unfold osl_int_is_precision_supported, is_mp. destruct (Z.eqb_spec p PRECISION_MP) as [->|]; [|done].
  cbn. by destruct (gmp cfg).
Qed.
Lemma pswitch_ok {A} p (x : res A) : osl_int_is_precision_supported p = true → pswitch p x x = x.
Proof.
  unfold osl_int_is_precision_supported, pswitch, is_fixed, is_mp. intros H.
  destruct (Z.eqb_spec p PRECISION_SP), (Z.eqb_spec p PRECISION_DP), (Z.eqb_spec p PRECISION_MP), (gmp cfg); cbn in *; done.
Qed.
Lemma pswitch_err {A} p (x y : res A) : osl_int_is_precision_supported p = false → pswitch p x y = Err.
Proof.
  unfold osl_int_is_precision_supported, pswitch, is_fixed, is_mp. intros H.
  destruct (Z.eqb_spec p PRECISION_SP), (Z.eqb_spec p PRECISION_DP), (Z.eqb_spec p PRECISION_MP), (gmp cfg); cbn in *; done.
Qed.
Lemma m_coef_known p c z : M (m_coef p c z) ⊢ <affine> ⌜osl_int_is_precision_supported p = true⌝ ∗ M (m_coef p c z).
Proof. unfold m_coef. rewrite !M_beside !M_nothing. iIntros "[%H K]". iFrame. auto. Qed.
Lemma m_coefs_length p cs l : M (m_coefs p cs l) ⊢ <affine> ⌜List.length cs = List.length l⌝ ∗ M (m_coefs p cs l).
Proof.
  revert l. induction cs as [|c cs IH]; intros [|z l]; cbn [m_coefs].
  - iIntros "H". by iFrame.
  - iIntros "%H". done.
  - iIntros "%H". done.
  - iIntros "[A B]". iDestruct (IH with "B") as "[%E B]". rewrite M_beside. iFrame. iPureIntro. cbn. lia.
Qed.
Lemma sees_coefs_length h p cs l : sees h (m_coefs p cs l) → List.length cs = List.length l.
Proof.
  revert l. induction cs as [|c cs IH]; intros [|z l]; cbn [m_coefs]; try done.
  - intros H%sees_nothing. done.
  - intros H%sees_nothing. done.
  - intros [_ H]%sees_beside. cbn. by rewrite (IH l).
Qed.
Lemma sees_coefs h p cs l k z : sees h (m_coefs p cs l) → l !! k = Some z → (∃ c, cs !! k = Some c ∧ sees h (m_coef p c z))%type.
Proof.
  revert l k. induction cs as [|c cs IH]; intros [|z' l] k; cbn [m_coefs]; try done.
  - intros H%sees_nothing. done.
  - intros [H1 H2]%sees_beside. destruct k as [|k]; cbn; [intros [= ->]; by exists c|by apply IH].
Qed.
Lemma m_coefs_take p cs l k z : l !! k = Some z →
  M (m_coefs p cs l) ⊢ ∃ c, <affine> ⌜cs !! k = Some c⌝ ∗ M (m_coef p c z) ∗ (∀ c' z', M (m_coef p c' z') -∗ M (m_coefs p (<[k := c']> cs) (<[k := z']> l))).
Proof.
  revert l k. induction cs as [|c cs IH]; intros [|z' l] k Hk; try done; cbn [m_coefs].
  - iIntros "%H". done.
  - iIntros "[A B]". destruct k as [|k].
    + injection Hk as ->. iExists c. iSplitR; [done|]. iFrame "A". iIntros (c' z'') "A". cbn. rewrite M_beside. iFrame.
    + iDestruct (IH l k Hk with "B") as (c0) "(% & B & K)". iExists c0. iSplitR; [done|]. iFrame "B". iIntros (c' z'') "B". cbn. rewrite M_beside. iFrame "A".
      by iApply "K".
Qed.

(** *** Arrays *)
Lemma wp_coef_at_own h b cs k c (Q : _ → oprop) : h !! b = Some (CBlock (BCells cs)) → (0 ≤ k)%Z → cs !! Z.to_nat k = Some (Some c) →
  own h ∗ (own h -∗ Q c) ⊢ wp (coef_at (b, k)) Q.
Proof.
  iIntros (E Hk Ek) "[H K]". iApply wp_bind. iApply wp_bind. iApply wp_get_block_own; [done|]. iFrame. iIntros "H".
  iApply wp_ret. cbn [fst snd]. replace (Z.ltb k 0) with false by lia. rewrite Ek. iApply wp_ret. by iApply "K".
Qed.
Lemma wp_coef_at b cs k c (Q : _ → oprop) : (0 ≤ k)%Z → cs !! Z.to_nat k = Some (Some c) →
  b ↦ CBlock (BCells cs) ∗ (b ↦ CBlock (BCells cs) -∗ Q c) ⊢ wp (coef_at (b, k)) Q.
Proof.
  iIntros (Hk Ek) "[H K]". iApply wp_bind. iApply wp_bind. iApply wp_get_block. iFrame "H". iIntros "H".
  iApply wp_ret. cbn [fst snd]. replace (Z.ltb k 0) with false by lia. rewrite Ek. iApply wp_ret. by iApply "K".
Qed.
Lemma wp_set_coef b cs k c (Q : _ → oprop) : (0 ≤ k < Z.of_nat (List.length cs))%Z →
  b ↦ CBlock (BCells cs) ∗ (b ↦ CBlock (BCells (<[Z.to_nat k := Some c]> cs)) -∗ Q tt) ⊢ wp (set_coef (b, k) c) Q.
Proof.
  iIntros (Hk) "[H K]". iApply wp_bind. iApply wp_bind. iApply wp_get_block. iFrame "H". iIntros "H". iApply wp_ret. cbn [fst snd].
  replace (Z.leb 0 k && Z.ltb k (Z.of_nat (List.length cs))) with true by lia. iApply wp_put. iFrame.
Qed.
Lemma wp_known p (Q : _ → oprop) : osl_int_is_precision_supported p = true → Q tt ⊢ wp (known p) Q.
Proof. intros H. unfold known. rewrite H. apply wp_ret. Qed.

(** The number at an index *)
Lemma wp_number_own h p b l k z (Q : _ → oprop) : sees h (m_array p b l) → (0 ≤ k)%Z → l !! Z.to_nat k = Some z →
  own h ∗ (own h -∗ Q z) ⊢ wp (number p (b, k)) Q.
Proof.
  intros (cs & [[E _]%sees_cell S]%sees_beside)%sees_somewhere Hk Ez.
  destruct (sees_coefs _ _ _ _ _ _ S Ez) as (c & Ec & [Hs%sees_nothing Sc]%sees_beside).
  iIntros "[H K]". iApply wp_bind. iApply wp_known; [done|]. iApply wp_bind. iApply wp_coef_at_own; [done|done|by apply map_Some_lookup|].
  iFrame "H". iIntros "H". rewrite (supported_mp p Hs). destruct (Z.eqb p PRECISION_MP) eqn:Ep.
  - apply sees_somewhere in Sc as ([q d] & [->%sees_nothing [[Eq _]%sees_cell [Ed _]%sees_cell]%sees_beside]%sees_beside).
    iApply wp_bind. iApply wp_bind. iApply wp_get_block_own; [done|]. iFrame "H". iIntros "H". iApply wp_ret.
    iApply wp_bind. iApply wp_get_block_own; [done|]. iFrame "H". iIntros "H". iApply wp_ret. by iApply "K".
  - apply sees_nothing in Sc as ->. rewrite Z.eqb_refl. iApply wp_ret. by iApply "K".
Qed.
Lemma wp_number p b l k z (Q : _ → oprop) : (0 ≤ k)%Z → l !! Z.to_nat k = Some z →
  M (m_array p b l) ∗ (M (m_array p b l) -∗ Q z) ⊢ wp (number p (b, k)) Q.
Proof. intros Hk Ez. apply wp_reads. intros h Q' S. by eapply wp_number_own. Qed.
(** A new number at an index *)
Lemma wp_renumber p b l k z (Q : _ → oprop) : (0 ≤ k < zlength l)%Z →
  M (m_array p b l) ∗ (M (m_array p b (<[Z.to_nat k := z]> l)) -∗ Q tt) ⊢ wp (renumber p (b, k) z) Q.
Proof.
  intros Hk. unfold zlength in Hk. destruct (lookup_lt_is_Some_2 l (Z.to_nat k)) as [z0 Ez]; [lia|].
  iIntros "[H K]". iDestruct "H" as (cs) "[B C]". iDestruct (m_coefs_length with "C") as "[%El C]".
  iDestruct (m_coefs_take _ _ _ _ _ Ez with "C") as (c) "(%Ec & C & R)". iDestruct (m_coef_known with "C") as "[%Hs C]".
  unfold renumber. rewrite (supported_mp p Hs). unfold m_coef. destruct (Z.eqb p PRECISION_MP) eqn:Ep.
  - iDestruct "C" as "[_ C]". iDestruct "C" as ([q d]) "C". iDestruct "C" as "(%E & A & D)". subst c. iApply wp_bind. rewrite !M_cell. iApply wp_coef_at; [lia|by apply map_Some_lookup|].
    iFrame "B". iIntros "B". iApply wp_bind. iApply wp_bind. iApply wp_get_block. iFrame "A". iIntros "A". iApply wp_ret. iApply wp_bind. iApply wp_bind. iApply wp_get_block.
    iFrame "D". iIntros "D". iApply wp_ret. iApply wp_put. iFrame "D". iIntros "D". iApply "K". iExists cs. rewrite M_beside M_cell. iFrame "B".
    iAssert (M (m_coefs p (<[Z.to_nat k := Mp q]> cs) (<[Z.to_nat k := z]> l))) with "[R A D]" as "X"; [|by rewrite (list_insert_id cs (Z.to_nat k) (Mp q))]. iApply "R". rewrite M_beside !M_nothing M_somewhere. iSplitR; [done|]. iExists (q, d). rewrite !M_beside !M_cell !M_nothing. by iFrame.
  - rewrite M_cell. iDestruct "C" as "[_ %E]". subst c. iApply (wp_set_coef b (List.map Some cs)); [rewrite map_length; lia|]. iFrame "B". iIntros "B". iApply "K".
    iExists (<[Z.to_nat k := Num p z]> cs). rewrite M_beside M_cell. change (List.map Some) with (fmap (M := list) (@Some coef)). rewrite list_fmap_insert. iFrame "B". iApply "R".
    rewrite M_beside !M_nothing. done.
Qed.
End SIM.
