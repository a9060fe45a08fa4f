(** * SaveHeapProofs2: the text of extensions and symbols *)
From stdpp Require Import gmap.
From iris.proofmode Require Import tactics.
From Coq Require Import ZifyBool ZifyNat.
From Verif Require Import Base IntModel VectorModel RelationModel UtilModel StringsModel RelTextModel ExtModel Spec RelSpec HeapModel HeapObjects HeapSpec HeapLogic HeapProofs ScopModel PayloadModel PayloadSpec PayloadProofs PayloadProofs2 PayloadProofs3 PayloadProofs4 PayloadProofs5 PayloadProofs6 MatModel MatSpec MatProofs MatProofs4 MatProofs6 FullModel FullSpec FullProofs FullProofs2 PrintHeapModel PrintHeapProofs PrintHeapProofs3 ReadHeapProofs SaveHeapModel SaveHeapProofs.
Local Open Scope string_scope.
Local Open Scope list_scope.
Local Open Scope Z_scope.
Local Open Scope bi_scope.
Notation loop := HeapModel.loop.
Notation cell := PayloadSpec.cell.

Section GENERICS.
Context {cfg : config} {al : Allocator obj}.

Ltac block E := eapply reads_bind; [eapply reads_bind; [exact (reads_block _ _ _ E)|apply reads_ret]|]; cbn beta iota.
Lemma reads_nb_symbols_loop h l : ∀ p fuel, sees h (m_symbols p l) → (List.length l < fuel)%nat → reads h (nb_symbols_loop fuel p) (zlength l).
Proof.
  induction l as [|x l IH]; intros p [|fuel] Sp Hf; try (cbn in Hf; lia); cbn [nb_symbols_loop]; rewrite (sees_chain_null _ symbol_nonnull _ _ _ Sp).
  - apply reads_ret.
  - apply sees_chain_cons in Sp as (n & Hx & Hl). destruct x as [t g d a b c e]. destruct (sees_symbol _ _ _ _ _ _ _ _ _ _ Hx) as (pa & pb & pc & pe & Ep & _). block Ep.
    eapply reads_bind; [apply (IH n fuel Hl); cbn in Hf; lia|]. replace (zlength (Symbol t g d a b c e :: l)) with (zlength l + 1) by (unfold zlength; cbn [List.length]; lia). apply reads_ret.
Qed.
Lemma reads_nb_symbols h p l : sees h (m_symbols p l) → reads h (osl_symbols_get_nb_symbols_h p) (zlength l).
Proof. intros Sp Q. apply (wp_loop_on (List.length l)); [eapply own_size; [apply symbols_length|done]|]. intros k Hk. by apply reads_nb_symbols_loop. Qed.
Lemma sim_tag h u i slash (f : str → str) (Q : str → str → oprop) : sees h (m_str u (if_uri i)) →
  own h ∗ (∀ t, own h -∗ Q t t) ⊢ sim (buf_store (c_lt :: slash ++ pr (if_uri i) ++ [c_gt; c_nl])) (tag_line slash u) Q.
Proof. intros Su. iIntros "[H K]". unfold tag_line. iApply sim_heap. iApply (reads_fetch_str _ _ _ Su). iFrame "H". iIntros "H". iApply sim_lift. iIntros (t) "_". by iApply "K". Qed.
Ltac cat := iApply sim_heap; iApply wp_cat; iFrame "B"; let b := fresh "b" in iIntros (b) "B".
Definition generics_printed h fuel : Prop := ∀ l p b s (Q : str → ptr * Z → oprop), sees h (m_generics p l) → (sumw wgen l < fuel)%nat →
  own h ∗ buf b s ∗ (∀ t b', own h -∗ buf b' (s ++ t) -∗ Q t b') ⊢ sim (generics_text generic_sprint_one l) (generic_sprint_loop fuel p b) Q.
Definition symbols_printed h fuel : Prop := ∀ l p i b s (Q : str → ptr * Z → oprop), sees h (m_symbols p l) → (sumw wsym l < fuel)%nat →
  own h ∗ buf b s ∗ (∀ t b', own h -∗ buf b' (s ++ t) -∗ Q t b') ⊢ sim (symbols_text symbol_sprint i l) (symbols_sprint_loop fuel p i b) Q.
Lemma sim_content h fuel k pd d (Q : option str → ptr → oprop) : symbols_printed h fuel → sees h (m_content pd d) → (wgen (Generic None d) ≤ fuel)%nat →
  own h ∗ (∀ o q, own h -∗ maybe_str o q -∗ Q o q) ⊢
  sim (match d with None => null_sprint k | Some d => data_sprint k d end)
    (match k with
     | KSymbols =>
         s <== new_buffer ;; n <== osl_symbols_get_nb_symbols_h pd ;;
         s <== osl_util_safe_strcat_h s (ln (lit "# Number of symbols") ++ lnZ n) ;;
         s <== symbols_sprint_loop fuel pd 1 s ;; ret (fst s)
     | _ => data_sprint_h k pd
     end) Q.
Proof.
  intros IH Sd Hf. destruct (decide (k = KSymbols)) as [->|Hk].
  - assert (∀ l, sees h (m_symbols pd l) → (sumw wsym l < fuel)%nat →
      own h ∗ (∀ o q, own h -∗ maybe_str o q -∗ Q o q) ⊢ sim (t <- symbols_text symbol_sprint 1 l ;; Ok (Some (ln (lit "# Number of symbols") ++ lnZ (zlength l) ++ t)))
        (s <== new_buffer ;; n <== osl_symbols_get_nb_symbols_h pd ;; s <== osl_util_safe_strcat_h s (ln (lit "# Number of symbols") ++ lnZ n) ;; s <== symbols_sprint_loop fuel pd 1 s ;; ret (fst s)) Q) as Hs.
    { intros l Sl Hl. iIntros "[H K]". iApply sim_heap. iApply wp_new_buffer. iIntros (b) "B". iApply sim_heap. iApply (reads_nb_symbols _ _ _ Sl). iFrame "H". iIntros "H". cat. iApply sim_bind. iApply (IH l); [done|done|]. iFrame "H B".
      iIntros (t b') "H B". iApply sim_ret. iApply ("K" with "H"). unfold maybe_str, buf. rewrite app_nil_l -app_assoc. iFrame. }
    destruct d as [d|]; cbn [m_content] in Sd.
    + destruct d; try (iIntros "H"; iStopProof; cbn [data_sprint]; apply sim_UB). cbn [data_sprint]. apply Hs; [done|cbn in Hf; lia].
    + apply sees_nothing in Sd as ->. cbn [null_sprint]. specialize (Hs []). cbn [symbols_text bind] in Hs. rewrite app_nil_r in Hs. apply Hs; [exists ∅; split; [apply map_empty_subseteq|done]|cbn in *; lia].
  - iIntros "H". iDestruct (sim_data_sprint h k pd d Q with "H") as "H"; [done..|]. destruct k; done.
Qed.
Lemma sim_generic_one h fuel i d data pi b s (Q : str → ptr * Z → oprop) : symbols_printed h fuel → sees h (m_iface_opt pi i) → sees h (m_content data d) → (wgen (Generic i d) ≤ fuel)%nat →
  own h ∗ buf b s ∗ (∀ t b', own h -∗ buf b' (s ++ t) -∗ Q t b') ⊢
  sim (generic_sprint_one (Generic i d))
    (if isnull pi then ret b
     else k <== kind_at pi ;;
          content <== match k with
                      | KSymbols =>
                          s <== new_buffer ;; n <== osl_symbols_get_nb_symbols_h data ;;
                          s <== osl_util_safe_strcat_h s (ln (lit "# Number of symbols") ++ lnZ n) ;;
                          s <== symbols_sprint_loop fuel data 1 s ;; ret (fst s)
                      | _ => data_sprint_h k data
                      end ;;
          if isnull content then ret b
          else '(u, _, _) <== get_iface_b pi ;;
               buffer <== tag_line [] u ;; b <== osl_util_safe_strcat_h b buffer ;;
               c <== get_str content ;; b <== osl_util_safe_strcat_h b c ;; free content ;;==
               buffer <== tag_line [c_slash] u ;; osl_util_safe_strcat_h b buffer) Q.
Proof.
  intros IH Si Sd Hf. iIntros "(H & B & K)".
  rewrite (iface_opt_null _ _ _ Si). destruct i as [i|]; cbn [generic_sprint_one].
  2:{ iApply sim_ret. iApply ("K" with "H"). by rewrite app_nil_r. }
  iApply sim_heap. iApply (wp_kind_at_own h pi i NULL); [done|]. iFrame "H". iIntros "H". iApply sim_bind. iApply (sim_content h fuel); [done|done|by destruct d|]. iFrame "H". iIntros (o q) "H O". destruct o as [t|]; cbn [maybe_str].
  - iDestruct (isnull_false with "O") as "[%Eq O]". rewrite Eq. destruct (sees_iface _ _ _ _ Si) as (u & Epi & _ & Su). iApply sim_heap. iApply wp_bind. iApply wp_get_block_own; [exact Epi|]. iFrame "H". iIntros "H". iApply wp_ret.
    iApply sim_bind. iApply (sim_tag h u i [] id); [done|]. iFrame "H". iIntros (t1) "H". cat. iApply sim_heap. iApply wp_get_str. iFrame "O". iIntros "O". cat. iApply sim_heap. iApply wp_free. iFrame "O".
    iApply sim_bind. iApply (sim_tag h u i [c_slash] id); [done|]. iFrame "H". iIntros (t2) "H". iApply sim_ok. iApply wp_cat. iFrame "B". iIntros (b3) "B". rewrite -!app_assoc. iApply ("K" with "H B").
  - iDestruct "O" as %->. change (isnull NULL) with true. cbn beta iota. iApply sim_ret. iApply ("K" with "H"). by rewrite app_nil_r.
Qed.
Lemma bind_assoc' {A B C} (v : res A) (f : A → res B) (g : B → res C) : bind (bind v f) g = bind v (λ x, bind (f x) g).
Proof. by destruct v. Qed.
Lemma printed_all h fuel : (generics_printed h fuel ∧ symbols_printed h fuel)%type.
Proof.
  induction fuel as [|fuel [IHg IHs]]; split; [intros l p b s Q Sp Hf; lia|intros l p i b s Q Sp Hf; lia| |].
  - intros l p b s Q Sp Hf. cbn [generic_sprint_loop]. rewrite (sees_chain_null _ generic_nonnull _ _ _ Sp). iIntros "(H & B & K)". destruct l as [|g l]; cbn [generics_text].
    { iApply sim_ret. iApply ("K" with "H"). by rewrite app_nil_r. }
    apply sees_chain_cons in Sp as (n & Sg & Sl). cbn [sumw] in Hf. assert (wgen g ≥ 1)%nat as Hg by (destruct g as [? []]; cbn; lia). destruct g as [i d]. destruct (sees_generic _ _ _ _ _ Sg) as (pd & pi & Ep & Hp & Si & Sd). iApply sim_heap. iApply wp_bind. iApply wp_get_block_own; [exact Ep|]. iFrame "H". iIntros "H". iApply wp_ret. cbn beta iota.
    iApply sim_bind. iApply (sim_generic_one h fuel i d pd pi); [done|done|done|lia|]. iFrame "H B". iIntros (t b1) "H B".
    iApply sim_heap. iApply wp_bind. iApply wp_get_block_own; [exact Ep|]. iFrame "H". iIntros "H". iApply wp_ret.
    rewrite (sees_chain_null _ generic_nonnull _ _ _ Sl). iApply sim_heap. iApply (wp_wand _ (λ b', buf b' (s ++ t ++ match l with [] => [] | _ => [c_nl] end))%I). iSplitL "B".
    { destruct l; [iApply wp_ret; by rewrite app_nil_r|]. iApply wp_cat. iFrame "B". iIntros (b') "B". by rewrite app_assoc. }
    iIntros (b2) "B". iApply sim_map. iApply (IHg l n b2); [done|lia|]. iFrame "H B". iIntros (r b3) "H B". iApply ("K" with "H"). by rewrite -!app_assoc.
  - intros l p i b s Q Sp Hf. cbn [symbols_sprint_loop]. rewrite (sees_chain_null _ symbol_nonnull _ _ _ Sp). iIntros "(H & B & K)". destruct l as [|x l]; cbn [symbols_text].
    { iApply sim_ret. iApply ("K" with "H"). by rewrite app_nil_r. }
    apply sees_chain_cons in Sp as (n & Sx & Sl). cbn [sumw] in Hf. destruct x as [ty gen dims a d c e]. destruct (sees_symbol _ _ _ _ _ _ _ _ _ _ Sx) as (pa & pb & pc & pe & Ep & Hp & Sa & Sb & Sc & Se). cbn [wsym] in Hf.
    iApply sim_heap. iApply wp_bind. iApply wp_get_block_own; [exact Ep|]. iFrame "H". iIntros "H". iApply wp_ret. cbn beta iota. do 7 cat. cbn [symbol_sprint].
    rewrite !bind_assoc'. iApply sim_heap. iApply wp_new_buffer. iIntros (s1) "S". iApply sim_bind. iApply (IHg a); [done|lia|]. iFrame "H S". iIntros (ta q1) "H S". iApply sim_heap. iApply wp_cat_free. iFrame "B S". iIntros (b8) "B". cat.
    rewrite !bind_assoc'. iApply sim_heap. iApply wp_new_buffer. iIntros (s2) "S". iApply sim_bind. iApply (IHg d); [done|lia|]. iFrame "H S". iIntros (td q2) "H S". iApply sim_heap. iApply wp_cat_free. iFrame "B S". iIntros (b10) "B". cat.
    rewrite !bind_assoc'. iApply sim_heap. iApply wp_new_buffer. iIntros (s3) "S". iApply sim_bind. iApply (IHg c); [done|lia|]. iFrame "H S". iIntros (tc q3) "H S". iApply sim_heap. iApply wp_cat_free. iFrame "B S". iIntros (b12) "B". cat.
    rewrite !bind_assoc'. iApply sim_heap. iApply wp_new_buffer. iIntros (s4) "S". iApply sim_bind. iApply (IHg e); [done|lia|]. iFrame "H S". iIntros (te q4) "H S". iApply sim_heap. iApply wp_cat_free. iFrame "B S". iIntros (b14) "B".
    cbn [bind]. iApply sim_map. iApply (IHs l n); [done|lia|]. iFrame "H B". iIntros (r b15) "H B". iApply ("K" with "H"). rewrite -!app_assoc app_nil_l. done.
Qed.
Lemma sim_generic_sprint h p l (Q : str → ptr → oprop) : sees h (m_generics p l) →
  own h ∗ (∀ t q, own h -∗ q ↦ CBlock (BStr t) -∗ Q t q) ⊢ sim (osl_generic_sprint l) (osl_generic_sprint_h p) Q.
Proof.
  intros Sp. iIntros "[H K]". unfold osl_generic_sprint_h. iApply sim_heap. iApply wp_new_buffer. iIntros (b) "B". unfold osl_generic_sprint. rewrite -(bind_ok (generics_text _ _)). iApply sim_bind.
  iCombine "B K" as "K". iCombine "H K" as "H". iStopProof. apply (sim_loop_on _ (sumw wgen l)); [eapply own_size; [apply generics_weight|done]|]. intros n Hn. iIntros "(H & B & K)".
  iApply (proj1 (printed_all h n) l p b []); [done|done|]. iFrame "H B". iIntros (t b') "H B". iApply sim_ret. iApply ("K" with "H B").
Qed.
Lemma sim_generic_print h p l (Q : str → str → oprop) : sees h (m_generics p l) → own h ∗ (∀ t, own h -∗ Q t t) ⊢ sim (osl_generic_sprint l) (osl_generic_print_h p) Q.
Proof.
  intros Sp. iIntros "[H K]". unfold osl_generic_print_h. rewrite -(bind_ok (osl_generic_sprint l)). iApply sim_bind. iApply sim_generic_sprint; [done|]. iFrame "H". iIntros (t q) "H P". iApply sim_ok.
  iApply wp_bind. iApply wp_get_str. iFrame "P". iIntros "P". iApply wp_bind. iApply wp_free. iFrame "P". iApply wp_ret. by iApply "K".
Qed.
Lemma sim_symbols_sprint h p l (Q : option str → ptr → oprop) : sees h (m_symbols p l) →
  own h ∗ (∀ o q, own h -∗ maybe_str o q -∗ Q o q) ⊢ sim (osl_symbols_sprint l) (osl_symbols_sprint_h p) Q.
Proof.
  intros Sp. replace (osl_symbols_sprint l) with (t <- symbols_text symbol_sprint 1 l ;; Ok (Some (ln (lit "# Number of symbols") ++ lnZ (zlength l) ++ t))).
  2:{ destruct l; [cbn [symbols_text bind osl_symbols_sprint null_sprint]; by rewrite app_nil_r|done]. }
  iIntros "[H K]". unfold osl_symbols_sprint_h. iApply sim_heap. iApply wp_new_buffer. iIntros (b) "B". iApply sim_heap. iApply (reads_nb_symbols _ _ _ Sp). iFrame "H". iIntros "H". cat. iApply sim_bind.
  iCombine "B K" as "K". iCombine "H K" as "H". iStopProof. apply (sim_loop_on _ (sumw wsym l)); [eapply own_size; [apply symbols_weight|done]|]. intros n Hn. iIntros "(H & B & K)".
  iApply (proj2 (printed_all h n) l p); [done|done|]. iFrame "H B". iIntros (t b') "H B". iApply sim_ret. iApply ("K" with "H"). unfold maybe_str, buf. rewrite app_nil_l -app_assoc. iFrame.
Qed.
End GENERICS.
