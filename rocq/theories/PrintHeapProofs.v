(** * PrintHeapProofs: buffers, and reading relations while they are printed *)
From stdpp Require Import gmap.
From iris.proofmode Require Import tactics.
From Coq Require Import ZifyBool ZifyNat.
From Verif Require Import Base IntModel VectorModel RelationModel UtilModel StringsModel RelTextModel Spec RelSpec LoopLemmas IntProofs RelationProofs HeapModel HeapObjects HeapSpec HeapLogic HeapProofs PayloadModel PayloadSpec PayloadProofs PayloadProofs2 PayloadProofs5 MatModel MatSpec MatProofs MatProofs2 MatProofs3 MatProofs4 MatProofs5 MatProofs6 FullModel PrintHeapModel.
Local Open Scope string_scope.
Local Open Scope list_scope.
Local Open Scope Z_scope.
Local Open Scope bi_scope.
Notation loop := HeapModel.loop.
Notation cell := PayloadSpec.cell.

Section BUF.
Context {cfg : config} {al : Allocator obj}.

(** ** Loops *)
Lemma sim_sfor_loop {S T} (I : Z → S → T → oprop) (f : Z → S → res S) (g : Z → T → oprog T) k : ∀ i s t Q,
  (∀ j s t, (i ≤ j < i + Z.of_nat k)%Z → I j s t ⊢ sim (f j s) (g j t) (λ s' t', I (j + 1)%Z s' t')) →
  I i s t ∗ (∀ s' t', I (i + Z.of_nat k)%Z s' t' -∗ Q s' t') ⊢ sim (for_loop k i f s) (sfor_loop k i g t) Q.
Proof.
  induction k as [|k IH]; intros i s t Q H; cbn [for_loop sfor_loop]; iIntros "[H K]".
  - iApply sim_ret. iApply "K". by rewrite Z.add_0_r.
  - iApply sim_bind. iApply sim_mono. iSplitL "H". { iApply (H i s t with "H"). lia. }
    iIntros (s' t') "_ H". iApply IH; [|iFrame "H"]. { intros j s0 t0 Hj. apply H. lia. }
    iIntros (s0 t0) "H". iApply "K". by replace (i + Z.of_nat (Datatypes.S k))%Z with (i + 1 + Z.of_nat k)%Z by lia.
Qed.
Lemma sim_sfor {S T} (I : Z → S → T → oprop) (f : Z → S → res S) (g : Z → T → oprog T) lo hi s t Q :
  (∀ j s t, (lo ≤ j < hi)%Z → I j s t ⊢ sim (f j s) (g j t) (λ s' t', I (j + 1)%Z s' t')) →
  I lo s t ∗ (∀ s' t', I (Z.max lo hi) s' t' -∗ Q s' t') ⊢ sim (cfor lo hi f s) (sfor lo hi g t) Q.
Proof.
  intros H. unfold cfor, sfor. replace (Z.max lo hi) with (lo + Z.of_nat (Z.to_nat (hi - lo)))%Z by lia. apply sim_sfor_loop. intros j s0 t0 Hj. apply H. lia.
Qed.
(** A loop without local variables, with an index *)
Lemma sim_ifor_loop {S} (I : Z → S → oprop) (f : Z → S → res S) (g : Z → oprog unit) k : ∀ i s Q,
  (∀ j s, (i ≤ j < i + Z.of_nat k)%Z → I j s ⊢ sim (f j s) (g j) (λ s' _, I (j + 1)%Z s')) →
  I i s ∗ (∀ s', I (i + Z.of_nat k)%Z s' -∗ Q s' tt) ⊢ sim (for_loop k i f s) (zfor_loop k i g) Q.
Proof.
  induction k as [|k IH]; intros i s Q H; cbn [for_loop zfor_loop]; iIntros "[H K]".
  - iApply sim_ret. iApply "K". by rewrite Z.add_0_r.
  - iApply sim_bind. iApply sim_mono. iSplitL "H". { iApply (H i s with "H"). lia. }
    iIntros (s' t') "_ H". iApply IH; [|iFrame "H"]. { intros j s0 Hj. apply H. lia. }
    iIntros (s0) "H". iApply "K". by replace (i + Z.of_nat (Datatypes.S k))%Z with (i + 1 + Z.of_nat k)%Z by lia.
Qed.
Lemma sim_ifor {S} (I : Z → S → oprop) (f : Z → S → res S) (g : Z → oprog unit) lo hi s Q : (lo ≤ hi)%Z →
  (∀ j s, (lo ≤ j < hi)%Z → I j s ⊢ sim (f j s) (g j) (λ s' _, I (j + 1)%Z s')) →
  I lo s ∗ (∀ s', I hi s' -∗ Q s' tt) ⊢ sim (cfor lo hi f s) (zfor lo hi g) Q.
Proof.
  intros Hl H. unfold cfor, zfor. replace (I hi) with (I (lo + Z.of_nat (Z.to_nat (hi - lo)))%Z) by (f_equal; lia). apply sim_ifor_loop. intros j s0 Hj. apply H. lia.
Qed.
Lemma wp_sfor {T} (I : Z → T → oprop) (g : Z → T → oprog T) lo hi t (Q : T → oprop) : (lo ≤ hi)%Z →
  (∀ j t, (lo ≤ j < hi)%Z → I j t ⊢ wp (g j t) (λ t', I (j + 1)%Z t')) →
  I lo t ∗ (∀ t', I hi t' -∗ Q t') ⊢ wp (sfor lo hi g t) Q.
Proof.
  intros Hl H. unfold sfor. replace (I hi) with (I (lo + Z.of_nat (Z.to_nat (hi - lo)))%Z) by (f_equal; lia).
  assert (∀ j t, (lo ≤ j < lo + Z.of_nat (Z.to_nat (hi - lo)))%Z → I j t ⊢ wp (g j t) (λ t', I (j + 1)%Z t')) as H' by (intros j t0 Hj; apply H; lia).
  clear H. revert H'. generalize (Z.to_nat (hi - lo)) as k. clear Hl. intros k. revert lo t. induction k as [|k IH]; intros lo t H; cbn [sfor_loop]; iIntros "[H K]".
  - iApply wp_ret. iApply "K". by rewrite Z.add_0_r.
  - iApply wp_bind. iApply wp_wand. iSplitL "H". { iApply (H lo t with "H"). lia. }
    iIntros (t') "H". iApply IH; [|iFrame "H"]. { intros j t0 Hj. apply H. lia. }
    iIntros (t0) "H". iApply "K". by replace (lo + Z.of_nat (Datatypes.S k))%Z with (lo + 1 + Z.of_nat k)%Z by lia.
Qed.

(** ** Buffers *)
Definition buf (b : ptr * Z) (s : str) : oprop := fst b ↦ CBlock (BStr s).
Lemma wp_get_str p s (Q : _ → oprop) : p ↦ CBlock (BStr s) ∗ (p ↦ CBlock (BStr s) -∗ Q s) ⊢ wp (get_str p) Q.
Proof. iIntros "[H K]". iApply wp_bind. iApply wp_get_block. iFrame "H". iIntros "H". iApply wp_ret. by iApply "K". Qed.
Lemma wp_grow fuel : ∀ needed d hwm s (Q : _ → oprop), (needed + 2 ≤ hwm + Z.of_nat fuel)%Z → (0 < fuel)%nat →
  d ↦ CBlock (BStr s) ∗ (∀ b, buf b s -∗ Q b) ⊢ wp (strcat_grow_h fuel needed d hwm) Q.
Proof.
  induction fuel as [|k IH]; intros needed d hwm s Q Hf Hk; [lia|]. cbn [strcat_grow_h]. iIntros "[H K]". destruct (Z.leb_spec hwm needed).
  - iApply wp_bind. iApply wp_get_str. iFrame "H". iIntros "H". iApply wp_bind. iApply wp_free. iFrame "H". iApply wp_bind. iApply wp_malloc. iIntros (d') "H".
    iApply IH; [unfold MAX_STRING; lia|lia|]. iFrame.
  - iApply wp_ret. iApply ("K" $! (d, hwm)). iFrame.
Qed.
Lemma wp_cat b s t (Q : _ → oprop) : buf b s ∗ (∀ b', buf b' (s ++ t) -∗ Q b') ⊢ wp (osl_util_safe_strcat_h b t) Q.
Proof.
  iIntros "[H K]". unfold buf. iApply wp_bind. iApply wp_get_str. iFrame "H". iIntros "H". iApply wp_bind. iApply (wp_grow _ _ _ _ s); [lia|lia|]. iFrame "H". iIntros (b') "H".
  destruct b' as [d hwm]. unfold buf. cbn [fst]. iApply wp_bind. iApply wp_get_str. iFrame "H". iIntros "H". iApply wp_bind. iApply wp_put. iFrame "H". iIntros "H". iApply wp_ret. iApply ("K" $! (d, hwm)). iFrame.
Qed.
Lemma wp_new_buffer (Q : _ → oprop) : (∀ b, buf b [] -∗ Q b) ⊢ wp new_buffer Q.
Proof. iIntros "K". iApply wp_bind. iApply wp_malloc. iIntros (p) "H". iApply wp_ret. by iApply ("K" $! (p, MAX_STRING)). Qed.

(** ** Coefficients *)
Lemma own_split h p v : h !! p = Some v → p ≠ NULL → own h ⊣⊢ p ↦ v ∗ own (delete p h).
Proof.
  intros E Hp. rewrite -{1}(insert_delete h p v E) insert_union_singleton_l own_union; [|apply map_disjoint_singleton_l, lookup_delete].
  f_equiv. constructor. intros h'. split; [intros ->; done|by intros [-> _]].
Qed.
(** The variable [a] holds [z] in [h]. *)
Definition slot (h : heap obj) (p : Z) (a : addr) (z : Z) : Prop :=
  (osl_int_is_precision_supported p = true ∧ 0 ≤ snd a ∧ fst a ≠ NULL ∧
   ∃ cs, h !! fst a = Some (CBlock (BCells cs)) ∧
     if Z.eqb p PRECISION_MP then ∃ q d, cs !! Z.to_nat (snd a) = Some (Some (Mp q)) ∧ h !! q = Some (CBlock (BMpz d)) ∧ h !! d = Some (CBlock (BLimbs z)) ∧ d ≠ NULL
     else cs !! Z.to_nat (snd a) = Some (Some (Num p z)))%type.
(** [h'] is [h] with [z] in [a]. *)
Definition renumbered (p : Z) (a : addr) (z : Z) (h h' : heap obj) : Prop :=
  (∃ cs, h !! fst a = Some (CBlock (BCells cs)) ∧
     if Z.eqb p PRECISION_MP then ∃ q d, cs !! Z.to_nat (snd a) = Some (Some (Mp q)) ∧ h !! q = Some (CBlock (BMpz d)) ∧ h' = <[d := CBlock (BLimbs z)]> h
     else h' = <[fst a := CBlock (BCells (<[Z.to_nat (snd a) := Some (Num p z)]> cs))]> h)%type.
Lemma slot_array h p b l k z : sees h (m_array p b l) → (0 ≤ k)%Z → l !! Z.to_nat k = Some z → slot h p (b, k) z.
Proof.
  intros (cs & [[E Hb]%sees_cell S]%sees_beside)%sees_somewhere Hk Ez.
  destruct (sees_coefs _ _ _ _ _ _ S Ez) as (c & Ec & [Hs%sees_nothing Sc]%sees_beside).
  split_and!; [done|done|done|]. exists (List.map Some cs). split; [done|]. cbn [fst snd]. destruct (Z.eqb p PRECISION_MP) eqn:Ep.
  - apply sees_somewhere in Sc as ([q d] & [->%sees_nothing [[Eq _]%sees_cell [Ed Hd]%sees_cell]%sees_beside]%sees_beside). exists q, d. split_and!; [by apply map_Some_lookup|done..].
  - apply sees_nothing in Sc as ->. by apply map_Some_lookup.
Qed.
Lemma slot_renumbered h h' p a z0 z : slot h p a z0 → renumbered p a z h h' → slot h' p a z.
Proof.
  intros (Hp & Ha & Hn & cs & E & H) (cs' & E' & H'). assert (cs' = cs) as -> by congruence. split_and!; [done..|].
  destruct (Z.eqb p PRECISION_MP) eqn:Ep.
  - destruct H as (q & d & E1 & E2 & E3 & Hd), H' as (q' & d' & E1' & E2' & ->). assert (q' = q) as -> by congruence. assert (d' = d) as -> by congruence. exists cs. split.
    + rewrite lookup_insert_ne; [done|]. congruence.
    + exists q, d. split_and!; [done| |by rewrite lookup_insert|done]. rewrite lookup_insert_ne; [done|]. congruence.
  - subst h'. exists (<[Z.to_nat (snd a) := Some (Num p z)]> cs). split; [by rewrite lookup_insert|]. apply list_lookup_insert. apply lookup_lt_is_Some. by eexists.
Qed.
Lemma renumbered_back h h' h'' p a z0 z : slot h p a z0 → renumbered p a z h h' → renumbered p a z0 h' h'' → h'' = h.
Proof.
  intros (Hp & Ha & Hn & cs & E & H) (cs' & E' & H') (cs'' & E'' & H''). assert (cs' = cs) as -> by congruence.
  destruct (Z.eqb p PRECISION_MP) eqn:Ep.
  - destruct H as (q & d & E1 & E2 & E3 & Hd), H' as (q' & d' & E1' & E2' & ->). assert (q' = q) as -> by congruence. assert (d' = d) as -> by congruence.
    destruct H'' as (q' & d' & E1'' & E2'' & ->). rewrite lookup_insert_ne in E''; [|congruence]. assert (cs'' = cs) as -> by congruence. assert (q' = q) as -> by congruence.
    rewrite lookup_insert_ne in E2''; [|congruence]. assert (d' = d) as -> by congruence. by rewrite insert_insert insert_id.
  - subst h'. rewrite lookup_insert in E''. injection E'' as <-. rewrite H'' list_insert_insert (list_insert_id _ _ _ H) insert_insert insert_id; done.
Qed.
Lemma wp_number_slot h p a z (Q : _ → oprop) : slot h p a z → own h ∗ (own h -∗ Q z) ⊢ wp (number p a) Q.
Proof.
  destruct a as [b k]. intros (Hp & Ha & Hn & cs & E & H). cbn [fst snd] in *. iIntros "[H K]". iApply wp_bind. iApply wp_known; [done|]. iApply wp_bind. rewrite (supported_mp p Hp). destruct (Z.eqb p PRECISION_MP) eqn:Ep.
  - destruct H as (q & d & E1 & E2 & E3 & Hd). iApply wp_coef_at_own; [done..|]. iFrame "H". iIntros "H". iApply wp_bind. iApply wp_bind. iApply wp_get_block_own; [done|]. iFrame "H". iIntros "H". iApply wp_ret.
    iApply wp_bind. iApply wp_get_block_own; [done|]. iFrame "H". iIntros "H". iApply wp_ret. by iApply "K".
  - iApply wp_coef_at_own; [done..|]. iFrame "H". iIntros "H". rewrite Z.eqb_refl. iApply wp_ret. by iApply "K".
Qed.
Lemma wp_renumber_slot h p a z z' (Q : _ → oprop) : slot h p a z → own h ∗ (∀ h', <affine> ⌜renumbered p a z' h h'⌝ -∗ own h' -∗ Q tt) ⊢ wp (renumber p a z') Q.
Proof.
  destruct a as [b k]. intros (Hp & Ha & Hn & cs & E & H). cbn [fst snd] in *. iIntros "[H K]". unfold renumber. rewrite (supported_mp p Hp). destruct (Z.eqb p PRECISION_MP) eqn:Ep.
  - destruct H as (q & d & E1 & E2 & E3 & Hd). iApply wp_bind. iApply wp_coef_at_own; [done..|]. iFrame "H". iIntros "H". iApply wp_bind. iApply wp_bind. iApply wp_get_block_own; [done|]. iFrame "H". iIntros "H". iApply wp_ret.
    iApply wp_bind. iApply wp_bind. iApply wp_get_block_own; [done|]. iFrame "H". iIntros "H". iApply wp_ret.
    rewrite (own_split h d _ E3 Hd). iDestruct "H" as "[D H]". iApply wp_put. iFrame "D". iIntros "D". iApply ("K" $! (<[d := CBlock (BLimbs z')]> h)).
    + iPureIntro. exists cs. split; [done|]. rewrite Ep. by exists q, d.
    + rewrite (own_split (<[d := _]> h) d (CBlock (BLimbs z'))); [|by rewrite lookup_insert|done]. rewrite delete_insert_delete. iFrame.
  - rewrite (own_split h b _ E Hn). iDestruct "H" as "[D H]". iApply (wp_set_coef b cs); [apply lookup_lt_Some in H; lia|]. iFrame "D". iIntros "D". iApply ("K" $! (<[b := CBlock (BCells (<[Z.to_nat k := Some (Num p z')]> cs))]> h)).
    + iPureIntro. exists cs. split; [done|]. by rewrite Ep.
    + rewrite (own_split (<[b := _]> h) b (CBlock (BCells (<[Z.to_nat k := Some (Num p z')]> cs)))); [|by rewrite lookup_insert|done]. rewrite delete_insert_delete. iFrame.
Qed.
Lemma oppose_value p v w : osl_int_is_precision_supported p = true → osl_int_oppose p v = Ok w → w = (- v)%Z.
Proof.
  intros H E. unfold osl_int_oppose in E. unfold osl_int_is_precision_supported, pswitch, is_fixed, is_mp in *. unfold c_neg, csigned in E.
  repeat match type of E with context [if ?x then _ else _] => destruct x end; cbn in *; try done; congruence.
Qed.
Lemma sim_oppose h p a z (Q : Z → unit → oprop) : slot h p a z →
  own h ∗ (∀ z' h', <affine> ⌜osl_int_oppose p z = Ok z' ∧ renumbered p a z' h h'⌝ -∗ own h' -∗ Q z' tt) ⊢ sim (osl_int_oppose p z) (osl_int_oppose_m p a a) Q.
Proof.
  intros Hs. iIntros "[H K]". unfold osl_int_oppose_m. iApply sim_heap. iApply wp_number_slot; [done|]. iFrame "H". iIntros "H".
  destruct (osl_int_oppose p z) as [z'| | |] eqn:E; [|cbn [sim]; iApply (wpe_bind_l (lift Err)); iStopProof; apply wpe_lift|iStopProof; apply sim_UB|iStopProof; apply bi.True_intro].
  iApply sim_ok. iApply wp_bind. iApply wp_lift; [done|]. iApply wp_renumber_slot; [done|]. iFrame "H". iIntros (h') "%R H". iApply ("K" with "[//] H").
Qed.

(** ** Reading a relation *)
Lemma mget_lookup {A} (m : list (list A)) i j row x : m !! i = Some row → row !! j = Some x → mget m (Z.of_nat i) (Z.of_nat j) = Ok x.
Proof.
  intros E1 E2. unfold mget, aget. replace (Z.of_nat i <? 0) with false by lia. replace (Z.of_nat j <? 0) with false by lia. rewrite !Nat2Z.id !nth_error_lookup' E1. cbn [bind]. by rewrite nth_error_lookup' E2.
Qed.
Lemma wp_read_coef h p m R C mat i j x (Q : _ → oprop) : sees h (m_matrix p m R C mat) → mget mat i j = Ok x →
  own h ∗ (own h -∗ Q x) ⊢ wp (read_coef p m i j) Q.
Proof.
  intros Sm E. destruct (sees_matrix _ _ _ _ _ _ _ _ _ Sm E) as (q & Em & Sq & Sh). destruct (mget_inv _ _ _ _ _ _ Sh E) as (Hi & Hj & Ex).
  iIntros "[H K]". iApply wp_bind. iApply wp_entry_own; [done|done|]. iFrame "H". iIntros "H". iApply wp_number_own; [done|nia|done|]. iFrame.
Qed.
Lemma wp_fetch_row h p m R C mat i row (Q : _ → oprop) : sees h (m_matrix p m R C mat) → mat !! i = Some row → (zlength row = C)%Z →
  own h ∗ (own h -∗ Q row) ⊢ wp (fetch_row p m C (Z.of_nat i)) Q.
Proof.
  intros Sm Ei Hr. iIntros "[H K]". iApply (wp_sfor (λ j l, own h ∗ <affine> ⌜l = take (Z.to_nat j) row⌝)); [unfold zlength in Hr; lia| |].
  - intros j l Hj. iIntros "[H ->]". destruct (lookup_lt_is_Some_2 row (Z.to_nat j)) as [x Ex]; [unfold zlength in Hr; lia|]. iApply wp_bind.
    iApply (wp_read_coef h p m R C mat (Z.of_nat i) j x); [done| |]. { rewrite -(Z2Nat.id j); [|lia]. by eapply mget_lookup. }
    iFrame "H". iIntros "H". iApply wp_ret. iFrame "H". iPureIntro. replace (Z.to_nat (j + 1)) with (Datatypes.S (Z.to_nat j)) by lia. by rewrite (take_S_r _ _ _ Ex).
  - iFrame "H". iSplitR; [done|]. iIntros (l) "[H ->]". rewrite take_ge; [|unfold zlength in Hr; lia]. by iApply "K".
Qed.
Lemma wp_fetch_matrix h p m R C mat (Q : _ → oprop) : sees h (m_matrix p m R C mat) → (0 ≤ R)%Z →
  own h ∗ (own h -∗ Q mat) ⊢ wp (fetch_matrix p m R C) Q.
Proof.
  intros Sm HR. pose proof Sm as Sm'. unfold m_matrix in Sm'. iIntros "[H K]". unfold fetch_matrix. destruct (_ || _).
  - apply sees_nothing in Sm' as [-> ->]. cbn. iApply wp_ret. by iApply "K".
  - apply sees_somewhere in Sm' as (q & [[_ Hm]%sees_cell [_ [Hl Hf]%sees_nothing]%sees_beside]%sees_beside). rewrite (null_ne _ Hm). rewrite Forall_lookup in Hf.
    iApply (wp_sfor (λ j l, own h ∗ <affine> ⌜l = take (Z.to_nat j) mat⌝)); [done| |].
    + intros j l Hj. iIntros "[H ->]". destruct (lookup_lt_is_Some_2 mat (Z.to_nat j)) as [row Er]; [unfold zlength in Hl; lia|]. iApply wp_bind. rewrite -{1}(Z2Nat.id j); [|lia].
      iApply (wp_fetch_row h p m R C mat (Z.to_nat j) row); [done|done|by eapply Hf|]. iFrame "H". iIntros "H". iApply wp_ret. iFrame "H". iPureIntro. replace (Z.to_nat (j + 1)) with (Datatypes.S (Z.to_nat j)) by lia. by rewrite (take_S_r _ _ _ Er).
    + iFrame "H". iSplitR; [done|]. iIntros (l) "[H ->]". rewrite take_ge; [|unfold zlength in Hl; lia]. by iApply "K".
Qed.
Lemma wp_fetch_part h a r n (Q : _ → oprop) : sees h (m_part a r n) → own h ∗ (own h -∗ Q (r, n)) ⊢ wp (fetch_part a) Q.
Proof.
  intros (m & E & _ & HR & HC & Sm)%sees_part. iIntros "[H K]". iApply wp_bind. iApply wp_get_part_own; [done|]. iFrame "H". iIntros "H". iApply wp_bind. cbn [bare with_m rprec nrows ncols rtype nout nin nloc npar].
  iApply wp_fetch_matrix; [done|done|]. iFrame "H". iIntros "H". iApply wp_ret. destruct r. by iApply "K".
Qed.
Lemma wp_fetch_union h u : ∀ a (Q : _ → oprop), sees h (m_relation a u) → own h ∗ (own h -∗ Q u) ⊢ wp (fetch_union a) Q.
Proof.
  intros a Q Hs. apply (wp_loop_on (List.length u)); [eapply own_size; [apply m_relation_size|done]|]. intros n Hn. revert a n Q Hs Hn.
  induction u as [|r u IH]; intros a [|n] Q Hs Hn; try (cbn in Hn; lia); cbn [fetch_union_loop]; rewrite (sees_relation_null _ _ _ Hs).
  - iIntros "[H K]". iApply wp_ret. by iApply "K".
  - destruct (sees_relation_cons _ _ _ _ Hs) as (nx & Sp & Sl). iIntros "[H K]". iApply wp_bind. iApply wp_fetch_part; [done|]. iFrame "H". iIntros "H". iApply wp_bind. iApply IH; [done|cbn in Hn; lia|]. iFrame "H". iIntros "H". iApply wp_ret. by iApply "K".
Qed.
End BUF.
