(** * PrintHeapProofs3: the text of a relation *)
From stdpp Require Import gmap.
From iris.proofmode Require Import tactics.
From Coq Require Import ZifyBool ZifyNat.
From Verif Require Import Base IntModel VectorModel RelationModel UtilModel StringsModel ExtModel RelTextModel Spec RelSpec LoopLemmas IntProofs RelationProofs RelTextProofs HeapModel HeapObjects HeapSpec HeapLogic HeapProofs ScopModel PayloadModel PayloadSpec PayloadProofs PayloadProofs2 PayloadProofs3 PayloadProofs5 MatModel MatSpec MatProofs MatProofs2 MatProofs3 MatProofs4 MatProofs5 MatProofs6 FullModel FullSpec FullProofs FullProofs4 PrintHeapModel PrintHeapSpec PrintHeapProofs PrintHeapProofs2.
Local Open Scope string_scope.
Local Open Scope list_scope.
Local Open Scope Z_scope.
Local Open Scope bi_scope.
Notation loop := HeapModel.loop.
Notation cell := PayloadSpec.cell.

Section TEXT.
Context {cfg : config} {al : Allocator obj}.

(** ** The names of the columns *)
Lemma wp_fetch_names ht pa ps l : ht !! pa = Some (CBlock (BPtrs (List.map Some (ps ++ [NULL])))) → sees ht (m_strs ps (List.map Some l)) →
  ∀ fuel i (Q : _ → oprop), (i ≤ List.length l)%nat → (List.length l - i < fuel)%nat → own ht ∗ (own ht -∗ Q (drop i l)) ⊢ wp (fetch_names fuel pa i) Q.
Proof.
  intros Ha Hs. pose proof (sees_strs_length _ _ _ Hs) as El. rewrite map_length in El. pose proof (sees_strs_nonnull _ _ _ Hs) as Hn. induction fuel as [|k IH]; intros i Q Hi Hf; [lia|]. cbn [fetch_names]. iIntros "[H K]".
  iApply wp_bind. destruct (decide (i = List.length l)) as [->|Hne].
  - iApply wp_ptr_at_own; [done|rewrite -El; by apply end_lookup|]. iFrame "H". iIntros "H". cbn. iApply wp_ret. rewrite drop_all. by iApply "K".
  - destruct (lookup_ex l i) as [s Es]; [lia|]. destruct (sees_strs ht _ (Some s) ps i Hs) as (x & Ex & Sx); [by apply map_Some_lookup|]. apply sees_cell in Sx as [Sx Hx].
    iApply wp_ptr_at_own; [done|by apply mid_lookup|]. iFrame "H". iIntros "H". rewrite (null_ne _ Hx). iApply wp_bind. iApply wp_get_str_own; [done|]. iFrame "H". iIntros "H". iApply wp_bind. iApply IH; [lia|lia|]. iFrame "H". iIntros "H".
    iApply wp_ret. rewrite (drop_S _ _ _ Es). by iApply "K".
Qed.
Lemma column_fields_bare r l : ∀ i, column_fields (bare r) i l = column_fields r i l.
Proof. induction l as [|x l IH]; intros i; [done|]. cbn [column_fields]. by rewrite IH. Qed.
Lemma column_bare r l : osl_relation_column_string (bare r) l = osl_relation_column_string r l.
Proof. unfold osl_relation_column_string. by rewrite column_fields_bare. Qed.
Lemma sim_column_string h ht a r nx pa l (Q : str → ptr → oprop) : sees h (m_part a r nx) → sees ht (m_name_array pa l) →
  own h ∗ own ht ∗ (∀ t p, own h -∗ own ht -∗ p ↦ CBlock (BStr t) -∗ Q t p) ⊢ sim (osl_relation_column_string r l) (osl_relation_column_string_h a pa) Q.
Proof.
  intros Sp Sa. destruct (sees_part _ _ _ _ Sp) as (m & E & _). apply sees_somewhere in Sa as (ps & [[Ha _]%sees_cell Hs]%sees_beside). iIntros "(H & T & K)". unfold osl_relation_column_string_h.
  iApply sim_heap. iApply wp_get_part_own; [done|]. iFrame "H". iIntros "H". iApply sim_heap. iApply wp_malloc. iIntros (p) "P". iApply sim_heap. iApply wp_get_ptrs_own; [done|]. iFrame "T". iIntros "T".
  iApply sim_heap. pose proof (sees_strs_length _ _ _ Hs) as El. rewrite map_length in El. iApply (wp_fetch_names ht pa ps l); [done|done|lia| |]. { rewrite map_length app_length. cbn. lia. }
  iFrame "T". iIntros "T". rewrite drop_0. rewrite column_bare.
  destruct (osl_relation_column_string r l) as [t| | |]; [|cbn [sim]; iApply (wpe_bind_l (lift Err)); iStopProof; apply wpe_lift|iStopProof; apply sim_UB|iStopProof; apply bi.True_intro].
  iApply sim_ok. iApply wp_bind. iApply wp_lift; [done|]. iApply wp_bind. iApply wp_put. iFrame "P". iIntros "P". iApply wp_ret. iApply ("K" with "H T P").
Qed.
Lemma sim_strings_generate prefix nb (Q : strings → ptr → oprop) : (∀ x p, M (m_strings p (Some x)) -∗ Q x p) ⊢ sim (osl_strings_generate prefix nb) (strings_generate_h prefix nb) Q.
Proof.
  iIntros "K". unfold strings_generate_h. destruct (osl_strings_generate prefix nb) as [x| | |] eqn:E; [|unfold osl_strings_generate in E; repeat destruct (_ : bool) in E; done|iStopProof; apply sim_UB|iStopProof; apply bi.True_intro].
  destruct (nb <? 0) eqn:En. { exfalso. unfold osl_strings_generate in E. rewrite En in E. destruct (nb =? 0) eqn:E0; [lia|done]. }
  iApply sim_ok. iApply (wp_strings_generate prefix (Z.to_nat nb) x); [rewrite Z2Nat.id; [done|lia]|]. iIntros (q) "S". iApply ("K" with "S").
Qed.
Lemma sim_names_generate pp np pi ni ps ns pl nl pa na (Q : names → ptr → oprop) : (∀ x p, M (m_names p x) -∗ Q x p) ⊢
  sim (osl_names_generate pp np pi ni ps ns pl nl pa na) (osl_names_generate_h pp np pi ni ps ns pl nl pa na) Q.
Proof.
  iIntros "K". unfold osl_names_generate, osl_names_generate_h. iApply sim_heap. iApply wp_malloc. iIntros (p) "P".
  iApply sim_bind. iApply sim_strings_generate. iIntros (x1 p1) "S1". iApply sim_bind. iApply sim_strings_generate. iIntros (x2 p2) "S2". iApply sim_bind. iApply sim_strings_generate. iIntros (x3 p3) "S3".
  iApply sim_bind. iApply sim_strings_generate. iIntros (x4 p4) "S4". iApply sim_bind. iApply sim_strings_generate. iIntros (x5 p5) "S5". iApply sim_heap. iApply wp_put. iFrame "P". iIntros "P". iApply sim_ret. iApply "K".
  unfold m_names. iExists (p1, p2, p3, p4, p5). rewrite !M_beside M_cell. iFrame.
Qed.
Lemma sim_relation_names h a u (Q : names → ptr → oprop) : sees h (m_relation a u) → own h ∗ (∀ x p, own h -∗ M (m_names p x) -∗ Q x p) ⊢ sim (osl_relation_names u) (osl_relation_names_h a) Q.
Proof.
  intros Su. iIntros "[H K]". iApply sim_heap. iApply wp_fetch_union; [done|]. iFrame "H". iIntros "H". iApply sim_bind. iApply sim_lift. iIntros (at0) "_". iApply sim_names_generate. iIntros (x p) "N". iApply ("K" with "H N").
Qed.

(** ** Rows and parts *)
Lemma sim_row h ht a r u pa l pn n b s i (Q : str → (ptr * Z) → oprop) : sees h (m_relation a (r :: u)) → sees ht (m_name_array pa l) → names_at h pn n →
  own h ∗ own ht ∗ buf b s ∗ (∀ t b', own h -∗ own ht -∗ buf b' (s ++ t) -∗ Q t b') ⊢
  sim (cells <- print_cells r i ;; c <- osl_relation_sprint_comment (r :: u) r i l (n_arrays n) ;; Ok (cells ++ c ++ [c_nl])) (print_row_h a pa pn i b) Q.
Proof.
  intros Su Sa (pp & pi & psc & pl & par & En & _ & _ & _ & _ & Sar). destruct (sees_relation_cons _ _ _ _ Su) as (nx & Sp & _). destruct (sees_part _ _ _ _ Sp) as (m & E & _ & HR & HC & Sm). iIntros "(H & T & B & K)". unfold print_row_h, print_cells.
  iApply sim_heap. iApply wp_get_part_own; [done|]. iFrame "H". iIntros "H". change (ncols (bare r)) with (ncols r). change (rprec (bare r)) with (rprec r).
  iApply sim_bind. iApply (sim_sfor (λ _ (t : str) b, own h ∗ buf b (s ++ t))).
  - intros j t b0 Hj. iIntros "[H B]". iApply sim_pure. iSplitL; [|iPureIntro; apply mget_not_err]. iIntros (x) "%Ex". iApply sim_heap. iApply wp_read_coef; [done|done|]. iFrame "H". iIntros "H".
    iApply sim_bind. iApply sim_lift. iIntros (t1) "_". iApply sim_bind. iApply sim_lift. iIntros (t2) "_". iApply sim_ok. iApply wp_bind. iApply wp_cat. iFrame "B". iIntros (b1) "B". iApply wp_cat. iFrame "B". iIntros (b2) "B". rewrite -!app_assoc. iFrame.
  - rewrite app_nil_r. iFrame "H B". iIntros (cells b1) "[H B]". iApply sim_heap. iApply wp_bind. iApply wp_get_block_own; [done|]. iFrame "H". iIntros "H". iApply wp_ret.
    assert (∃ parr, h !! par = Some (CBlock (BStrings parr)))%type as [parr Ear]. { destruct (n_arrays n) as [la|]; cbn [m_strings] in Sar; [|apply sees_cell in Sar as [Sar _]; by eexists]. apply sees_somewhere in Sar as [[a0 ps0] [[S0 _]%sees_cell _]%sees_beside]. by eexists. }
    iApply sim_heap. iApply wp_get_strings_own; [done|]. iFrame "H". iIntros "H". iApply sim_bind. iApply (sim_comment h ht a r u par parr n); [done|done|done|done|]. iFrame "H T". iIntros (c p) "H T P".
    iApply sim_ok. iApply wp_bind. iApply wp_get_str. iFrame "P". iIntros "P". iApply wp_bind. iApply wp_cat. iFrame "B". iIntros (b2) "B". iApply wp_bind. iApply wp_free. iFrame "P". iApply wp_cat. iFrame "B". iIntros (b3) "B". rewrite -!app_assoc. iApply ("K" with "H T B").
Qed.
Lemma for_ext {S} (f g : Z → S → res S) : (∀ i s, f i s = g i s) → ∀ k i s, for_loop k i f s = for_loop k i g s.
Proof. intros H. induction k as [|k IH]; intros i s; [done|]. cbn [for_loop]. rewrite H. destruct (g i s); cbn; [apply IH|done..]. Qed.
Lemma sim_rows h ht a r u pa l pn n b s (Q : str → (ptr * Z) → oprop) : sees h (m_relation a (r :: u)) → sees ht (m_name_array pa l) → names_at h pn n →
  own h ∗ own ht ∗ buf b s ∗ (∀ t b', own h -∗ own ht -∗ buf b' (s ++ t) -∗ Q t b') ⊢
  sim (print_rows (r :: u) r l (n_arrays n)) (sfor 0 (nrows r) (λ i b, print_row_h a pa pn i b) b) Q.
Proof.
  intros Su Sa Hn. iIntros "(H & T & B & K)". unfold print_rows.
  replace (cfor 0 (nrows r) _ _) with (cfor 0 (nrows r) (λ i (s : str), t <- (cells <- print_cells r i ;; c <- osl_relation_sprint_comment (r :: u) r i l (n_arrays n) ;; Ok (cells ++ c ++ [c_nl])) ;; Ok (s ++ t)) []).
  2:{ apply for_ext. intros i s0. destruct (print_cells r i); cbn; [|done..]. destruct (osl_relation_sprint_comment (r :: u) r i l (n_arrays n)); done. }
  iApply (sim_sfor (λ _ (t : str) b, own h ∗ own ht ∗ buf b (s ++ t))).
  - intros j t b0 Hj. iIntros "(H & T & B)". iApply sim_map. iApply (sim_row h ht a r u pa l pn n b0 (s ++ t)); [done|done|done|]. iFrame "H T B". iIntros (t' b') "H T B". rewrite -app_assoc. iFrame.
  - rewrite app_nil_r. iFrame "H T B". iIntros (t b') "(H & T & B)". iApply ("K" with "H T B").
Qed.
Lemma wp_free_names {A} pa l k (b : A) (Q : _ → oprop) : List.length l = k → M (m_name_array pa l) ∗ Q b ⊢ wp (pfor k 0 (λ i, x <== ptr_at pa i ;; free x) ;;== free pa ;;== ret b) Q.
Proof.
  iIntros (<-) "[(%ps & A & S) K]". rewrite M_cell. iDestruct (m_strs_length with "S") as "[%E S]". rewrite map_length in E. iApply wp_bind.
  iApply (wp_pfor0 (λ j, pa ↦ CBlock (BPtrs (List.map Some (ps ++ [NULL]))) ∗ M (m_strs (drop j ps) (drop j (List.map Some l))))%I).
  - intros j Hj. destruct (lookup_ex (List.map (@Some str) l) j) as [s Hl]; [by rewrite map_length|]. destruct (lookup_ex ps j) as [p Hp]; [lia|].
    rewrite (drop_S _ s j Hl) (drop_S ps p j Hp). cbn [m_strs]. iIntros "(A & P & S)". iApply wp_bind. iApply wp_ptr_at; [by apply mid_lookup|]. iFrame "A". iIntros "A". iApply wp_free_str. iFrame.
  - rewrite !drop_0. iFrame "A S". iIntros "[A S]". rewrite (drop_ge ps); [|lia]. rewrite (drop_ge (List.map _ l)); [|rewrite map_length; lia]. iDestruct "S" as "_". iApply wp_bind. iApply wp_free. iFrame "A". by iApply wp_ret.
Qed.
Lemma sim_part h a r u pn n nb part b s (Q : str → (ptr * Z) → oprop) : sees h (m_relation a (r :: u)) → names_at h pn n → dims_in_order r →
  own h ∗ buf b s ∗ (∀ t b', own h -∗ buf b' (s ++ t) -∗ Q t b') ⊢ sim (print_part nb (r :: u) r part n) (print_part_h nb part a pn b) Q.
Proof.
  intros Su Hn Hd. destruct (sees_relation_cons _ _ _ _ Su) as (nx & Sp & _). destruct (sees_part _ _ _ _ Sp) as (m & E & _ & HR & HC & Sm). iIntros "(H & B & K)". unfold print_part, print_part_h.
  iApply sim_bind. iApply sim_relation_strings; [done|done|done|]. iFrame "H". iIntros (l pa) "H %Hl A". rewrite M_own. iDestruct "A" as (ht) "[%Ha T]". assert (sees ht (m_name_array pa l)) as Sa by by apply sees_self.
  iApply sim_heap. iApply (wp_wand _ (λ b', buf b' (s ++ (if 1 <? nb then lit "# Union part No." ++ print_Z part ++ [c_nl] else [])))%I). iSplitL "B".
  { destruct (1 <? nb); [iApply wp_cat; iFrame "B"; iIntros (b') "B"; iFrame|iApply wp_ret; rewrite app_nil_r; iFrame]. }
  iIntros (b1) "B". iApply sim_heap. iApply wp_get_part_own; [done|]. iFrame "H". iIntros "H". change (nrows (bare r)) with (nrows r). change (ncols (bare r)) with (ncols r). change (print_dims (bare r)) with (print_dims r).
  iApply sim_heap. iApply wp_cat. iFrame "B". iIntros (b2) "B". set (s2 := (s ++ _) ++ _). iApply sim_bind. iApply sim_mono. iSplitL "H T B".
  { instantiate (1 := λ t b, own h ∗ own ht ∗ buf b (s2 ++ t)). cbn beta. destruct (0 <? nrows r).
    - iApply sim_bind. iApply sim_column_string; [done|done|]. iFrame "H T". iIntros (c p) "H T P". iApply sim_ok. iApply wp_bind. iApply wp_get_str. iFrame "P". iIntros "P". iApply wp_bind. iApply wp_cat. iFrame "B". iIntros (b3) "B".
      iApply wp_bind. iApply wp_free. iFrame "P". iApply wp_ret. iFrame.
    - iApply sim_ret. rewrite app_nil_r. iFrame. }
  iIntros (col b3) "_ (H & T & B)". iApply sim_bind. iApply (sim_rows h ht a r u pa l pn n); [done|done|done|]. iFrame "H T B". iIntros (rows b4) "H T B". iApply sim_ok.
  iApply (wp_free_names pa l); [unfold zlength, str in *; lia|]. iSplitL "T"; [rewrite M_own; iExists ht; by iFrame|]. iApply ("K" with "H"). unfold s2. by rewrite -!app_assoc.
Qed.
Lemma sim_parts h pn n nb : ∀ u a part b s (Q : str → (ptr * Z) → oprop), sees h (m_relation a u) → names_at h pn n → Forall dims_in_order u →
  own h ∗ buf b s ∗ (∀ t b', own h -∗ buf b' (s ++ t) -∗ Q t b') ⊢ sim (print_parts nb u part n) (print_parts_h (List.length u) nb part a pn b) Q.
Proof.
  induction u as [|r u IH]; intros a part b s Q Su Hn Hd; cbn [print_parts print_parts_h List.length]; iIntros "(H & B & K)".
  - iApply sim_ret. iApply ("K" with "H"). by rewrite app_nil_r.
  - apply Forall_cons_1 in Hd as [Hr Hd]. destruct (sees_relation_cons _ _ _ _ Su) as (nx & Sp & Sl). destruct (sees_part _ _ _ _ Sp) as (m & E & _). iApply sim_bind. iApply (sim_part h a r u pn n nb part b s); [done|done|done|]. iFrame "H B". iIntros (t b1) "H B".
    iApply sim_heap. iApply wp_get_part_own; [done|]. iFrame "H". iIntros "H". iApply sim_map. iApply (IH nx (part + 1) b1 (s ++ t)); [done|done|done|]. iFrame "H B". iIntros (t2 b2) "H B". iApply ("K" with "H"). by rewrite app_assoc.
Qed.

(** ** Whole relations *)
Lemma names_at_mono h h' pn n : h ⊆ h' → names_at h pn n → names_at h' pn n.
Proof.
  intros Hh (a & b & c & d & e & En & S1 & S2 & S3 & S4 & S5). exists a, b, c, d, e. split; [by eapply lookup_weaken|]. split_and!; by eapply sees_mono.
Qed.
Lemma names_at_names h pn n : sees h (m_names pn n) → names_at h pn n.
Proof.
  intros ([[[[a b] c] d] e] & [[E _]%sees_cell [S1 [S2 [S3 [S4 S5]%sees_beside]%sees_beside]%sees_beside]%sees_beside]%sees_beside)%sees_somewhere. exists a, b, c, d, e. done.
Qed.
Lemma components_length (u : list relation) : osl_relation_nb_components u = Z.of_nat (List.length u).
Proof. induction u as [|r u IH]; [done|]. cbn [osl_relation_nb_components List.length]. rewrite IH. lia. Qed.
Lemma sim_polylib_text {A} h a r u pn n (f : ptr * Z → oprog A) (Q : str → A → oprop) : sees h (m_relation a (r :: u)) → names_at h pn n → Forall dims_in_order (r :: u) →
  let nb := osl_relation_nb_components (r :: u) in
  ∀ b, own h ∗ buf b [] ∗ (∀ t b', own h -∗ buf b' t -∗ wp (f b') (Q t)) ⊢
  sim (body <- print_parts nb (r :: u) 1 n ;; Ok ((if 1 <? nb then lit "# Union with " ++ print_Z nb ++ lit " parts" ++ [c_nl] ++ print_Z nb ++ [c_nl] else []) ++ body))
    (b <== (if 1 <? nb then osl_util_safe_strcat_h b (lit "# Union with " ++ print_Z nb ++ lit " parts" ++ [c_nl] ++ print_Z nb ++ [c_nl]) else ret b) ;;
     b <== print_parts_h (Z.to_nat nb) nb 1 a pn b ;; f b) Q.
Proof.
  intros Su Hn Hd nb b. iIntros "(H & B & K)". iApply sim_heap. set (s := if 1 <? nb then lit "# Union with " ++ print_Z nb ++ lit " parts" ++ [c_nl] ++ print_Z nb ++ [c_nl] else []). iApply (wp_wand _ (λ b', buf b' s)). iSplitL "B".
  { unfold s. destruct (1 <? nb); [iApply wp_cat; iFrame "B"; iIntros (b') "B"; iFrame|iApply wp_ret; iFrame]. }
  iIntros (b1) "B". iApply sim_bind. replace (Z.to_nat nb) with (List.length (r :: u)) by (unfold nb; rewrite components_length Nat2Z.id; done).
  iApply (sim_parts h pn n nb (r :: u) a 1 b1 s); [done|done|done|]. iFrame "H B". iIntros (t b') "H B". iApply sim_ok. iApply ("K" with "H B").
Qed.
Lemma sim_polylib h a u pn on (Q : str → ptr → oprop) : sees h (m_relation a u) → names_given h pn on → Forall dims_in_order u →
  own h ∗ (∀ t p, own h -∗ p ↦ CBlock (BStr t) -∗ Q t p) ⊢ sim (osl_relation_spprint_polylib u on) (osl_relation_spprint_polylib_h a pn) Q.
Proof.
  intros Su Hn Hd. iIntros "[H K]". unfold osl_relation_spprint_polylib, osl_relation_spprint_polylib_h. rewrite (sees_relation_null _ _ _ Su). destruct u as [|r u].
  { iApply sim_ok. iApply wp_malloc. iIntros (p) "P". iApply ("K" with "H P"). }
  iApply sim_heap. iApply wp_new_buffer. iIntros (b) "B". destruct on as [n|]; cbn [names_given] in Hn.
  - destruct Hn as [Hn0 Hn]. rewrite (null_ne _ Hn0). iApply sim_heap. iApply wp_ret. cbn [bind]. iApply sim_heap. iApply wp_nb_components; [done|]. iFrame "H". iIntros "H".
    iApply (sim_polylib_text h a r u pn n); [done|done|done|]. iFrame "H B". iIntros (t b') "H B". iApply wp_bind. iApply wp_ret. iApply wp_ret. iApply ("K" with "H B").
  - subst pn. cbn [isnull NULL Z.eqb]. iApply sim_bind. iApply sim_relation_names; [done|]. iFrame "H". iIntros (n pn) "H N". rewrite M_own. iDestruct "N" as (hn) "[%Hn N]". iDestruct (own_disjoint h hn with "[$H $N]") as "(%Hdj & H & N)".
    iApply sim_heap. iApply wp_nb_components; [done|]. iFrame "H". iIntros "H".
    iApply (sim_polylib_text (h ∪ hn) a r u pn n); [apply (sees_mono h); [by apply map_union_subseteq_l|done]| |done|].
    { apply (names_at_mono hn); [by apply map_union_subseteq_r|]. apply names_at_names. by apply sees_self. }
    iSplitL "H N"; [rewrite own_union; [iFrame|done]|]. iFrame "B". iIntros (t b') "H B". rewrite own_union; [|done]. iDestruct "H" as "[H N]". iApply wp_bind. iApply (wp_names_free pn n). iSplitL "N"; [rewrite M_own; iExists hn; by iFrame|].
    iApply wp_ret. iApply ("K" with "H B").
Qed.
Lemma wp_cat_free b s p t (Q : _ → oprop) : buf b s ∗ p ↦ CBlock (BStr t) ∗ (∀ b', buf b' (s ++ t) -∗ Q b') ⊢ wp (cat_free b p) Q.
Proof.
  iIntros "(B & P & K)". iApply wp_bind. iApply wp_get_str. iFrame "P". iIntros "P". iApply wp_bind. iApply wp_cat. iFrame "B". iIntros (b') "B". iApply wp_bind. iApply wp_free. iFrame "P". iApply wp_ret. by iApply "K".
Qed.
Lemma wp_sprint_type h a u (Q : _ → oprop) : sees h (m_relation a u) → own h ∗ (∀ p, own h -∗ p ↦ CBlock (BStr (osl_relation_sprint_type u)) -∗ Q p) ⊢ wp (osl_relation_sprint_type_h a) Q.
Proof.
  intros Su. iIntros "[H K]". iApply wp_bind. iApply wp_malloc. iIntros (p) "P". rewrite (sees_relation_null _ _ _ Su). destruct u as [|r u]; iApply wp_bind.
  - iApply wp_ret. iApply wp_ret. iApply ("K" with "H P").
  - destruct (sees_relation_cons _ _ _ _ Su) as (nx & Sp & _). destruct (sees_part _ _ _ _ Sp) as (m & E & _). iApply wp_bind. iApply wp_get_part_own; [done|]. iFrame "H". iIntros "H". iApply wp_put. iFrame "P". iIntros "P". iApply wp_ret. iApply ("K" with "H P").
Qed.
Lemma sim_spprint h a u pn on (Q : str → ptr → oprop) : sees h (m_relation a u) → names_given h pn on → Forall dims_in_order u →
  own h ∗ (∀ t p, own h -∗ p ↦ CBlock (BStr t) -∗ Q t p) ⊢ sim (osl_relation_spprint u on) (osl_relation_spprint_h a pn) Q.
Proof.
  intros Su Hn Hd. iIntros "[H K]". unfold osl_relation_spprint, osl_relation_spprint_h. iApply sim_heap. iApply wp_new_buffer. iIntros (b) "B". iApply sim_heap. iApply wp_nb_components; [done|]. iFrame "H". iIntros "H".
  destruct (0 <? osl_relation_nb_components u); [|iApply sim_ret; iApply ("K" with "H B")].
  iApply sim_heap. iApply wp_sprint_type; [done|]. iFrame "H". iIntros (p) "H P". iApply sim_heap. iApply wp_cat_free. iFrame "B P". iIntros (b1) "B". iApply sim_heap. iApply wp_cat. iFrame "B". iIntros (b2) "B".
  iApply sim_bind. iApply sim_polylib; [done|done|done|]. iFrame "H". iIntros (t p2) "H P". iApply sim_ok. iApply wp_bind. iApply wp_cat_free. iFrame "B P". iIntros (b3) "B". iApply wp_ret. cbn [app]. rewrite -!app_assoc. iApply ("K" with "H B").
Qed.
Lemma sim_pprint h a u pn on (Q : str → str → oprop) : sees h (m_relation a u) → names_given h pn on → Forall dims_in_order u →
  own h ∗ (∀ t, own h -∗ Q t t) ⊢ sim (osl_relation_spprint u on) (osl_relation_pprint_h a pn) Q.
Proof.
  intros Su Hn Hd. iIntros "[H K]". unfold osl_relation_pprint_h.
  assert (osl_relation_spprint u on = bind (osl_relation_spprint u on) Ok) as -> by by destruct (osl_relation_spprint u on).
  iApply sim_bind. iApply (sim_spprint h a u pn on); [done|done|done|]. iFrame "H". iIntros (t p) "H P". iApply sim_ok. iApply wp_bind. iApply wp_get_str. iFrame "P". iIntros "P". iApply wp_bind. iApply wp_free. iFrame "P". iApply wp_ret. iApply ("K" with "H").
Qed.
End TEXT.
