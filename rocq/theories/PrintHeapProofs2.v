(** * PrintHeapProofs2: names of columns, expressions and comments *)
From stdpp Require Import gmap.
From iris.proofmode Require Import tactics.
From Coq Require Import ZifyBool ZifyNat.
From Verif Require Import Base IntModel VectorModel RelationModel UtilModel StringsModel RelTextModel Spec RelSpec LoopLemmas IntProofs RelationProofs RelTextProofs HeapModel HeapObjects HeapSpec HeapLogic HeapProofs PayloadModel PayloadSpec PayloadProofs PayloadProofs2 PayloadProofs3 PayloadProofs5 MatModel MatSpec MatProofs MatProofs2 MatProofs3 MatProofs4 MatProofs5 MatProofs6 FullModel PrintHeapModel PrintHeapSpec PrintHeapProofs.
Local Open Scope string_scope.
Local Open Scope list_scope.
Local Open Scope Z_scope.
Local Open Scope bi_scope.
Notation loop := HeapModel.loop.
Notation cell := PayloadSpec.cell.

Section NAMES.
Context {cfg : config} {al : Allocator obj}.

(** ** The array of the names of the columns *)
Definition names_upto (pa : ptr) (n : nat) (i : Z) (a : list (option str)) : oprop :=
  ∃ (l : list str) ps, <affine> ⌜zlength l = i ∧ a = List.map Some l ++ repeat None (n - List.length l) ∧ (List.length l ≤ n)%nat⌝%type ∗
    pa ↦ CBlock (BPtrs (List.map Some ps ++ repeat None (n - List.length l) ++ [Some NULL])) ∗ M (m_strs ps (List.map Some l)).
Definition m_name_array (pa : ptr) (l : list str) : mem := somewhere (λ ps, cell pa (BPtrs (List.map Some (ps ++ [NULL]))) ⋆ m_strs ps (List.map Some l)).
Lemma sim_set_name pa n i a x s : names_upto pa n i a ∗ x ↦ CBlock (BStr s) ⊢
  sim (aset a i (Some s)) (set_name pa i x) (λ a' _, names_upto pa n (i + 1) a').
Proof.
  iIntros "[(%l & %ps & %H & A & L) X]". destruct H as (<- & -> & Hl). iDestruct (m_strs_length with "L") as "[%El L]". rewrite map_length in El.
  destruct (aset _ _ _) as [a'| | |] eqn:E; [|by destruct (aset_not_err (List.map Some l ++ repeat None (n - List.length l)) (zlength l) (Some s))|iStopProof; apply sim_UB|iStopProof; apply bi.True_intro].
  apply aset_inv in E as [Hi ->]. unfold zlength in *. rewrite app_length map_length repeat_length in Hi. iApply sim_ok. unfold set_name. replace (Z.of_nat (List.length l) <? 0) with false by lia. rewrite !Nat2Z.id.
  replace (n - List.length l)%nat with (S (n - S (List.length l))) by lia. cbn [repeat]. replace (set_ptr pa (List.length l) x) with (set_ptr pa (List.length ps) x) by by rewrite El. change ((None :: repeat None (n - S (List.length l))) ++ [Some NULL]) with (None :: (repeat None (n - S (List.length l)) ++ [Some NULL])).
  iApply wp_push_ptr. iFrame "A". iIntros "A". iExists (l ++ [s]), (ps ++ [x]). rewrite app_length. cbn [List.length]. replace (List.length l + 1)%nat with (S (List.length l)) by lia. iFrame "A". iSplitR.
  - iPureIntro. split_and!; [unfold zlength; rewrite app_length; cbn [List.length]; lia| |lia]. rewrite insert_app_r_alt; [|by rewrite map_length]. rewrite map_length Nat.sub_diag. cbn [insert list_insert]. by rewrite map_app -app_assoc.
  - rewrite map_app. iApply m_strs_snoc. iFrame "L". done.
Qed.
Lemma sim_new_name pa n i a s : names_upto pa n i a ⊢ sim (aset a i (Some s)) (new_name pa i s) (λ a' _, names_upto pa n (i + 1) a').
Proof. iIntros "A". unfold new_name. iApply sim_heap. iApply wp_malloc. iIntros (x) "X". iApply sim_set_name. iFrame. Qed.
Lemma sees_name h p (src : strings) i s : sees h (m_strings p (Some src)) → aget (elems src) i = Ok s →
  (∃ a x l, h !! p = Some (CBlock (BStrings a)) ∧ h !! a = Some (CBlock (BPtrs l)) ∧ 0 ≤ i ∧ l !! Z.to_nat i = Some (Some x) ∧ sees h (m_str x (Some s)))%type.
Proof.
  intros Hs E. apply aget_inv in E as [Hi E]. destruct src as [l|]; cbn [elems m_strings] in *; [|by rewrite lookup_nil in E].
  apply sees_somewhere in Hs as [[a ps] [[Hp _]%sees_cell [[Ha _]%sees_cell Hl]%sees_beside]%sees_beside].
  destruct (sees_strs h _ (Some s) ps (Z.to_nat i) Hl) as (x & Ex & Sx); [by apply map_Some_lookup|]. exists a, x, (List.map Some (ps ++ [NULL])). split_and!; [done|done|lia| |done]. by apply mid_lookup.
Qed.
Lemma wp_name_at h p src i s (Q : _ → oprop) : sees h (m_strings p (Some src)) → aget (elems src) i = Ok s →
  own h ∗ (∀ x, <affine> ⌜sees h (m_str x (Some s))⌝ -∗ own h -∗ Q x) ⊢ wp (name_at p i) Q.
Proof.
  intros Hs E. destruct (sees_name _ _ _ _ _ Hs E) as (a & x & l & E1 & E2 & Hi & E3 & Sx). iIntros "[H K]". iApply wp_bind. iApply wp_get_strings_own; [done|]. iFrame "H". iIntros "H".
  replace (i <? 0) with false by lia. iApply wp_ptr_at_own; [done|done|]. iFrame "H". iIntros "H". by iApply "K".
Qed.
Lemma sim_copy_names h psrc src pa n lo hi a (Q : list (option str) → unit → oprop) : sees h (m_strings psrc (Some src)) → (lo ≤ hi)%Z →
  own h ∗ names_upto pa n lo a ∗ (∀ a', own h -∗ names_upto pa n hi a' -∗ Q a' tt) ⊢ sim (copy_names src lo hi a) (copy_names_h psrc pa lo hi) Q.
Proof.
  intros Hs Hl. iIntros "(H & A & K)". iApply (sim_ifor (λ i a, own h ∗ names_upto pa n i a)); [done| |].
  - intros j s Hj. iIntros "[H A]". iApply sim_pure. iSplitL; [|iPureIntro; apply aget_not_err]. iIntros (t) "%E". iApply sim_heap. iApply wp_name_at; [done|done|]. iFrame "H". iIntros (x) "%Sx H".
    iApply sim_heap. iApply wp_OSL_strdup; [done|]. iFrame "H". iIntros (y) "H Y". cbn [m_str]. rewrite M_cell. iApply sim_mono. iSplitL "A Y"; [iApply sim_set_name; iFrame|]. iIntros (a' u) "_ A". iFrame.
  - iFrame "H A". iIntros (s') "[H A]". iApply ("K" with "H A").
Qed.

Lemma map_Some_inj' (l1 : list str) : ∀ l, mapM (λ o : option str, match o with Some s => Ok s | None => UB end) (List.map Some l1) = Ok l → l = l1.
Proof. induction l1 as [|x l1 IH]; intros l H; cbn in H; [congruence|]. destruct (mapM _ _) as [y| | |] eqn:E; cbn in H; try done. injection H as <-. f_equal. by apply IH. Qed.
Lemma mapM_names (l1 : list str) k l : mapM (λ o : option str, match o with Some s => Ok s | None => UB end) (List.map Some l1 ++ repeat None k) = Ok l → (k = O ∧ l = l1)%type.
Proof.
  intros H. destruct k as [|k].
  - rewrite app_nil_r in H. split; [done|]. by apply map_Some_inj'.
  - exfalso. revert l H. induction l1 as [|x l1 IH]; intros l H; cbn in H; [done|]. destruct (mapM _ _) as [y| | |] eqn:E; cbn in H; try done. by eapply IH.
Qed.
Lemma mapM_names_not_err (a : list (option str)) : mapM (λ o : option str, match o with Some s => Ok s | None => UB end) a ≠ Err.
Proof. induction a as [|[x|] a IH]; cbn; try done. destruct (mapM _ _); cbn; done. Qed.
Lemma sim_names_done pa n i a (Q : list str → ptr → oprop) : names_upto pa n i a ∗ (∀ l, <affine> ⌜List.length l = n⌝ -∗ M (m_name_array pa l) -∗ Q l pa) ⊢
  sim (mapM (λ o : option str, match o with Some s => Ok s | None => UB end) a) (ret pa) Q.
Proof.
  iIntros "[(%l & %ps & %H & A & L) K]". destruct H as (<- & -> & Hl). destruct (mapM _ _) as [l'| | |] eqn:E; [|by apply mapM_names_not_err in E|iStopProof; apply sim_UB|iStopProof; apply bi.True_intro].
  apply mapM_names in E as [Hk ->]. rewrite Hk. iApply sim_ret. iApply "K"; [iPureIntro; lia|]. iExists ps. rewrite M_beside M_cell map_app. iFrame.
Qed.
Lemma sim_relation_strings h a r nx pn n (Q : list str → ptr → oprop) : sees h (m_part a r nx) → names_at h pn n → dims_in_order r →
  own h ∗ (∀ l p, own h -∗ <affine> ⌜zlength l = ncols r⌝ -∗ M (m_name_array p l) -∗ Q l p) ⊢ sim (osl_relation_strings r n) (osl_relation_strings_h a pn) Q.
Proof.
  intros Sp (pp & pi & psc & pl & par & En & Sp1 & Sp2 & Sp3 & Sp4 & Sp5) (D1 & D2 & D3 & D4 & D5). destruct (sees_part _ _ _ _ Sp) as (m & E & _ & HR & HC & _). iIntros "[H K]".
  unfold osl_relation_strings, osl_relation_strings_h. iApply sim_heap. iApply wp_get_part_own; [done|]. iFrame "H". iIntros "H". iApply sim_heap. iApply wp_bind. iApply wp_get_block_own; [done|]. iFrame "H". iIntros "H". iApply wp_ret.
  change (ncols (bare r)) with (ncols r). change (nout (bare r)) with (nout r). change (nin (bare r)) with (nin r). change (nloc (bare r)) with (nloc r). change (npar (bare r)) with (npar r).
  change (osl_relation_is_access (bare r)) with (osl_relation_is_access r). change (rtype (bare r)) with (rtype r).
  iApply sim_heap. iApply wp_malloc. iIntros (pa) "A". iApply sim_heap. unfold set_name at 1. replace (ncols r <? 0) with false by lia. iApply (wp_set_ptr pa (repeat None (Z.to_nat (ncols r + 1)))); [rewrite repeat_length; lia|]. iFrame "A". iIntros "A".
  replace (Z.to_nat (ncols r + 1)) with (Z.to_nat (ncols r) + 1)%nat by lia. rewrite new_table.
  iAssert (names_upto pa (Z.to_nat (ncols r)) 0 (repeat None (Z.to_nat (ncols r)))) with "[A]" as "A".
  { iExists [], []. cbn [List.length List.map app]. rewrite Nat.sub_0_r. iFrame "A". iSplitR; [iPureIntro; split_and!; [done|done|lia]|done]. }
  iApply sim_bind. iApply sim_mono. iSplitL "A"; [iApply sim_new_name; iFrame|]. iIntros (a1 u1) "_ A". cbn [Z.add].
  iApply sim_bind. iApply sim_mono. iSplitL "H A".
  { instantiate (1 := λ a' _, own h ∗ names_upto pa (Z.to_nat (ncols r)) (nout r + 1) a'). cbn beta. destruct (osl_relation_is_access r) eqn:Ea.
    - iApply sim_bind. iApply sim_mono. iSplitL "A"; [iApply sim_new_name; iFrame|]. iIntros (a2 u2) "_ A". iApply (sim_ifor (λ i a, own h ∗ names_upto pa (Z.to_nat (ncols r)) i a)); [specialize (D5 eq_refl); lia| |].
      + intros j s Hj. iIntros "[H A]". iApply sim_mono. iSplitL "A"; [iApply sim_new_name; iFrame|]. iIntros (a' u) "_ A". iFrame.
      + iFrame "H A". iIntros (s') "H". iFrame.
    - destruct (_ || _); iApply sim_copy_names; try done; try lia; iFrame "H A"; iIntros (a') "H A"; iFrame. }
  iIntros (a2 u2) "_ [H A]". iApply sim_bind. iApply sim_copy_names; [done| |]; last first.
  { replace (nout r + 1)%Z with (1 + nout r)%Z by lia. iFrame "H A". iIntros (a3) "H A". iApply sim_bind. iApply sim_copy_names; [done| |]; last first.
    { replace (nin r + (1 + nout r))%Z with (1 + nout r + nin r)%Z by lia. iFrame "H A". iIntros (a4) "H A". iApply sim_bind. iApply sim_copy_names; [done| |]; last first.
      { replace (nloc r + (1 + nout r + nin r))%Z with (1 + nout r + nin r + nloc r)%Z by lia. iFrame "H A". iIntros (a5) "H A". iApply sim_bind. iApply sim_mono.
        iSplitL "A"; [replace (npar r + (1 + nout r + nin r + nloc r))%Z with (1 + nout r + nin r + nloc r + npar r)%Z by lia; iApply sim_new_name; iFrame|]. iIntros (a6 u6) "_ A".
        iApply sim_names_done. iFrame "A". iIntros (l) "%Hl A". iApply ("K" with "H [] A"). iPureIntro. unfold zlength, str in *. lia. }
      all: lia. }
    all: lia. }
  all: lia.
Qed.

(** ** Expressions *)
Lemma sim_element ht name s val p first cst (Q : (str * bool) → (ptr * bool) → oprop) : ht !! name = Some (CBlock (BStr s)) →
  own ht ∗ (∀ t f sval, own ht -∗ sval ↦ CBlock (BStr t) -∗ Q (t, f) (sval, f)) ⊢
  sim (osl_relation_expression_element val p first cst s) (osl_relation_expression_element_h val p first cst name) Q.
Proof.
  intros E. iIntros "[H K]". unfold osl_relation_expression_element_h. iApply sim_heap. iApply wp_malloc. iIntros (temp) "T". iApply sim_heap. iApply wp_malloc. iIntros (body) "B". iApply sim_heap. iApply wp_malloc. iIntros (sval) "S".
  iApply sim_heap. iApply wp_get_str_own; [done|]. iFrame "H". iIntros "H". remember (osl_relation_expression_element val p first cst s) as v eqn:Ev. clear Ev.
  destruct v as [[t f]| | |]; [|cbn [sim]; iApply (wpe_bind_l (lift Err)); iStopProof; apply wpe_lift|iStopProof; apply sim_UB|iStopProof; apply bi.True_intro].
  iApply sim_ok. iApply wp_bind. iApply wp_lift; [done|]. iApply wp_bind. iApply wp_put. iFrame "S". iIntros "S". iApply wp_bind. iApply wp_free. iFrame "T". iApply wp_bind. iApply wp_free. iFrame "B".
  iApply wp_ret. iApply ("K" with "H S").
Qed.
Lemma wp_array_at ht pa l i s (Q : _ → oprop) : sees ht (m_name_array pa l) → aget l i = Ok s →
  own ht ∗ (∀ x, <affine> ⌜ht !! x = Some (CBlock (BStr s)) ∧ x ≠ NULL⌝%type -∗ own ht -∗ Q x) ⊢ wp (if i <? 0 then lift UB else ptr_at pa (Z.to_nat i)) Q.
Proof.
  intros (ps & [[Ha _]%sees_cell Hl]%sees_beside)%sees_somewhere E. apply aget_inv in E as [Hi E]. destruct (sees_strs ht _ (Some s) ps (Z.to_nat i) Hl) as (x & Ex & Sx); [by apply map_Some_lookup|].
  replace (i <? 0) with false by lia. iIntros "[H K]". iApply wp_ptr_at_own; [done|by apply mid_lookup|]. iFrame "H". iIntros "H". iApply ("K" with "[] H"). iPureIntro. by apply sees_cell in Sx.
Qed.
Lemma sim_subexpression h ht a r nx pa l row start stop oppose (Q : str → ptr → oprop) : sees h (m_part a r nx) → sees ht (m_name_array pa l) →
  own h ∗ own ht ∗ (∀ line p, own h -∗ own ht -∗ p ↦ CBlock (BStr line) -∗ Q line p) ⊢
  sim (osl_relation_subexpression r row start stop oppose l) (osl_relation_subexpression_h a row start stop oppose pa) Q.
Proof.
  intros Sp Sa. destruct (sees_part _ _ _ _ Sp) as (m & E & _ & HR & HC & Sm). iIntros "(H & T & K)". unfold osl_relation_subexpression, osl_relation_subexpression_h.
  iApply sim_heap. iApply wp_get_part_own; [done|]. iFrame "H". iIntros "H". change (ncols (bare r)) with (ncols r). change (rprec (bare r)) with (rprec r). iApply sim_heap. iApply wp_malloc. iIntros (sline) "L".
  iApply sim_bind. iApply (sim_sfor (λ _ (s : str * bool) f, own h ∗ own ht ∗ sline ↦ CBlock (BStr (fst s)) ∗ <affine> ⌜f = snd s⌝)).
  - intros j [line first] f Hj. cbn [fst snd]. iIntros "(H & T & L & ->)". iApply sim_pure. iSplitL; [|iPureIntro; apply mget_not_err]. iIntros (v) "%Ev".
    destruct (sees_matrix _ _ _ _ _ _ _ _ _ Sm Ev) as (q & Em & Sq & Sh). destruct (mget_inv _ _ _ _ _ _ Sh Ev) as (Hi & Hj' & Ex).
    assert (slot h (rprec r) (q, row * ncols r + j)%Z v) as Sl by (eapply slot_array; [done|nia|done]).
    assert (osl_int_is_precision_supported (rprec r) = true) as Hp by apply Sl.
    iApply sim_heap. iApply wp_entry_own; [done|done|]. iFrame "H". iIntros "H". destruct oppose.
    + iApply sim_bind. iApply sim_oppose; [done|]. iFrame "H". iIntros (v' h') "%R H". destruct R as [Ev' R]. pose proof (slot_renumbered _ _ _ _ _ _ Sl R) as Sl'.
      iApply sim_heap. iApply wp_number_slot; [done|]. iFrame "H". iIntros "H". iApply sim_pure. iSplitL; [|iPureIntro; apply aget_not_err]. iIntros (s) "%Es". iApply sim_heap. iApply wp_array_at; [done|done|]. iFrame "T". iIntros (x) "%Hx T". destruct Hx as [Hx _].
      iApply sim_bind. iApply sim_element; [done|]. iFrame "T". iIntros (t f sval) "T S". iApply sim_bind. iApply sim_oppose; [done|]. iFrame "H". iIntros (v'' h'') "%R' H". destruct R' as [Ev'' R'].
      apply oppose_value in Ev', Ev''; [|done|done]. assert (v'' = v) as -> by lia. rewrite (renumbered_back _ _ _ _ _ _ _ Sl R R').
      iApply sim_heap. iApply wp_get_str. iFrame "L". iIntros "L". iApply sim_heap. iApply wp_get_str. iFrame "S". iIntros "S". iApply sim_bind. iApply sim_lift. iIntros (line') "%El". iApply sim_heap. iApply wp_put. iFrame "L". iIntros "L".
      iApply sim_heap. iApply wp_free. iFrame "S". iApply sim_ret. cbn [fst snd]. by iFrame.
    + iApply sim_heap. iApply wp_ret. cbn [bind].
      iApply sim_heap. iApply wp_number_slot; [done|]. iFrame "H". iIntros "H". iApply sim_pure. iSplitL; [|iPureIntro; apply aget_not_err]. iIntros (s) "%Es". iApply sim_heap. iApply wp_array_at; [done|done|]. iFrame "T". iIntros (x) "%Hx T". destruct Hx as [Hx _].
      iApply sim_bind. iApply sim_element; [done|]. iFrame "T". iIntros (t f sval) "T S". iApply sim_heap. iApply wp_ret.
      iApply sim_heap. iApply wp_get_str. iFrame "L". iIntros "L". iApply sim_heap. iApply wp_get_str. iFrame "S". iIntros "S". iApply sim_bind. iApply sim_lift. iIntros (line') "%El". iApply sim_heap. iApply wp_put. iFrame "L". iIntros "L".
      iApply sim_heap. iApply wp_free. iFrame "S". iApply sim_ret. cbn [fst snd]. by iFrame.
  - cbn [fst snd]. iFrame "H T L". iSplitR; [done|]. iIntros ([line first] f) "(H & T & L & _)". iApply sim_ret. iApply ("K" with "H T L").
Qed.
Lemma sim_expression h ht a r nx pa l row (Q : str → ptr → oprop) : sees h (m_part a r nx) → sees ht (m_name_array pa l) →
  own h ∗ own ht ∗ (∀ line p, own h -∗ own ht -∗ p ↦ CBlock (BStr line) -∗ Q line p) ⊢
  sim (osl_relation_expression r row l) (osl_relation_expression_h a row pa) Q.
Proof.
  intros Sp Sa. destruct (sees_part _ _ _ _ Sp) as (m & E & _). iIntros "(H & T & K)". iApply sim_heap. iApply wp_get_part_own; [done|]. iFrame "H". iIntros "H". iApply sim_subexpression; [done|done|]. iFrame.
Qed.
Lemma wp_cat_expression b s before p e (Q : _ → oprop) : buf b s ∗ p ↦ CBlock (BStr e) ∗ (∀ b', buf b' (s ++ snp (before ++ e)) -∗ Q b') ⊢ wp (cat_expression b before p) Q.
Proof.
  iIntros "(B & P & K)". iApply wp_bind. iApply wp_get_str. iFrame "P". iIntros "P". iApply wp_bind. iApply wp_cat. iFrame "B". iIntros (b') "B". iApply wp_bind. iApply wp_free. iFrame "P". iApply wp_ret. by iApply "K".
Qed.
Lemma sim_comment h ht a r u pe parr n pa l row (Q : str → ptr → oprop) : sees h (m_relation a (r :: u)) → sees ht (m_name_array pa l) →
  sees h (m_strings pe (Some (n_arrays n))) → h !! pe = Some (CBlock (BStrings parr)) →
  own h ∗ own ht ∗ (∀ t p, own h -∗ own ht -∗ p ↦ CBlock (BStr t) -∗ Q t p) ⊢
  sim (osl_relation_sprint_comment (r :: u) r row l (n_arrays n)) (osl_relation_sprint_comment_h a row pa parr) Q.
Proof.
  intros Su Sa Se Ee. destruct (sees_relation_cons _ _ _ _ Su) as (nx & Sp & _). iIntros "(H & T & K)". unfold osl_relation_sprint_comment, osl_relation_sprint_comment_h.
  iApply sim_heap. iApply wp_new_buffer. iIntros (b) "B". iApply sim_heap. iApply wp_fetch_part; [done|]. iFrame "H". iIntros "H". iApply sim_bind. iApply sim_lift. iIntros (sign) "_". destruct (negb (sign =? 0)).
  - iApply sim_bind. iApply sim_subexpression; [done|done|]. iFrame "H T". iIntros (e p) "H T P". iApply sim_heap. iApply wp_cat_expression. iFrame "B P". iIntros (b') "B". cbn [app].
    iApply sim_bind. iApply sim_lift. iIntros (x) "_". iApply sim_bind. iApply sim_lift. iIntros (z) "_". destruct (_ || _).
    + iApply sim_bind. iApply sim_subexpression; [done|done|]. iFrame "H T". iIntros (e2 p2) "H T P". iApply sim_heap. iApply wp_cat_expression. iFrame "B P". iIntros (b2) "B". iApply sim_ret. iApply ("K" with "H T"). iFrame.
    + iApply sim_heap. iApply wp_fetch_union; [done|]. iFrame "H". iIntros "H". iApply sim_bind. iApply sim_lift. iIntros (id) "_". iApply sim_pure. iSplitL; [|iPureIntro; apply aget_not_err]. iIntros (s) "%Es".
      destruct (sees_name _ _ _ _ _ Se Es) as (arr & x0 & la & E1 & E2 & Hi & E3 & Sx). assert (arr = parr) as -> by congruence. replace (id - 1 <? 0) with false by lia.
      iApply sim_heap. iApply wp_ptr_at_own; [done|done|]. iFrame "H". iIntros "H". iApply sim_heap. apply sees_cell in Sx as [Sx _]. iApply wp_get_str_own; [done|]. iFrame "H". iIntros "H".
      iApply sim_heap. iApply wp_cat. iFrame "B". iIntros (b2) "B". iApply sim_ret. iApply ("K" with "H T"). iFrame.
  - iApply sim_bind. iApply sim_expression; [done|done|]. iFrame "H T". iIntros (e p) "H T P". iApply sim_heap. iApply wp_cat_expression. iFrame "B P". iIntros (b') "B". cbn [app].
    iApply sim_bind. iApply sim_lift. iIntros (x) "_". iApply sim_bind. iApply sim_lift. iIntros (z) "_". iApply sim_heap. iApply wp_cat. iFrame "B". iIntros (b2) "B". iApply sim_ret. iApply ("K" with "H T"). iFrame.
Qed.
End NAMES.
