(** * SaveHeapProofs5: the names of arrays and the text of scops *)
From stdpp Require Import gmap.
From iris.proofmode Require Import tactics.
From Coq Require Import ZifyBool ZifyNat.
From Verif Require Import Base IntModel VectorModel RelationModel UtilModel StringsModel RelTextModel ExtModel Spec RelSpec HeapModel HeapObjects HeapSpec HeapLogic HeapProofs ScopModel PayloadModel PayloadSpec PayloadProofs PayloadProofs2 PayloadProofs3 PayloadProofs4 PayloadProofs5 PayloadProofs6 MatModel MatSpec MatProofs MatProofs2 MatProofs4 MatProofs6 FullModel FullSpec FullProofs FullProofs2 FullProofs4 PrintHeapModel PrintHeapSpec PrintHeapProofs PrintHeapProofs3 ReadHeapProofs SaveHeapModel SaveHeapSpec SaveHeapProofs SaveHeapProofs2 SaveHeapProofs3 SaveHeapProofs4.
Local Open Scope string_scope.
Local Open Scope list_scope.
Local Open Scope Z_scope.
Local Open Scope bi_scope.
Notation loop := HeapModel.loop.
Notation cell := PayloadSpec.cell.

Section SCOPS.
Context {cfg : config} {al : Allocator obj}.

(** ** Arrays *)
Lemma reads_max_id h pi (a : arrays) : sees h (m_ints pi (List.map fst a)) → ∀ k i m, (i + k = List.length a)%nat →
  reads h (max_id_loop k i pi m) (fold_left (λ m (y : Z * str), if m <? fst y then fst y else m) (drop i a) m).
Proof.
  intros Si. induction k as [|k IH]; intros i m Hk; cbn [max_id_loop].
  - rewrite drop_ge; [apply reads_ret|lia].
  - destruct (lookup_ex a i) as [x Hx]; [lia|]. rewrite (drop_S _ _ _ Hx). cbn [fold_left]. eapply reads_bind; [eapply reads_int; [exact Si|exact (map_lookup fst _ _ _ Hx)]|]. apply IH. lia.
Qed.
Lemma strs_replace n : ∀ ps l p s, ps !! n = Some p → l !! n = Some s →
  M (m_strs ps l) ⊢ M (m_str p s) ∗ (∀ p' s', M (m_str p' s') -∗ M (m_strs (<[n := p']> ps) (<[n := s']> l))).
Proof.
  induction n as [|n IH]; intros [|q ps] [|x l] p s Hp Hs; try done; cbn in Hp, Hs; cbn [m_strs insert list_insert]; rewrite ?M_beside.
  - injection Hp as ->. injection Hs as ->. iIntros "[A B]". iFrame "A". iIntros (p' s') "A". rewrite M_beside. iFrame.
  - iIntros "[A B]". iDestruct (IH ps l p s Hp Hs with "B") as "[B K]". iFrame "B". iIntros (p' s') "B". iDestruct ("K" with "B") as "B". rewrite M_beside. iFrame.
Qed.
Definition strings_of (strings q : ptr) (l : list str) : oprop :=
  ∃ ps, strings ↦ CBlock (BStrings q) ∗ q ↦ CBlock (BPtrs (List.map Some (ps ++ [NULL]))) ∗ M (m_strs ps (List.map Some l)).
Lemma sim_put_names h pi pm ps0 strings q (a : arrays) : sees h (m_ints pi (List.map fst a)) → sees h (m_table pm ps0 (List.map (λ e, Some (snd e)) a)) →
  ∀ k i l (Q : list str → unit → oprop), (i + k = List.length a)%nat →
  own h ∗ strings_of strings q l ∗ (∀ l', own h -∗ strings_of strings q l' -∗ Q l' tt) ⊢
  sim (put_names (drop i a) l)
    (pfor k i (λ i, x <== int_at pi i ;; old <== name_at strings (x - 1) ;; free old ;;==
       s <== ptr_at pm i ;; new <== OSL_strdup_p s ;; a <== get_strings strings ;; set_name a (x - 1) new)) Q.
Proof.
  intros Si St. induction k as [|k IH]; intros i l Q Hk; iIntros "(H & S & K)"; cbn [pfor].
  - rewrite drop_ge; [|lia]. iApply sim_ret. iApply ("K" with "H S").
  - destruct (lookup_ex a i) as [[x name] Hx]; [lia|]. rewrite (drop_S _ _ _ Hx). cbn [put_names]. unfold aset. destruct ((0 <=? x - 1) && (x - 1 <? Z.of_nat (List.length l))) eqn:Er; [|iStopProof; apply sim_UB]. cbn [bind].
    iApply sim_heap. iApply wp_bind. iApply (reads_int h pi _ i x Si (map_lookup fst _ _ _ Hx)). iFrame "H". iIntros "H".
    iDestruct "S" as (ps) "(P & A & S)". iDestruct (m_strs_length with "S") as "[%El S]". rewrite map_length in El.
    destruct (lookup_ex ps (Z.to_nat (x - 1))) as [old Ho]; [unfold str in *; lia|]. destruct (lookup_ex l (Z.to_nat (x - 1))) as [so Hs]; [unfold str in *; lia|].
    assert ((x - 1 <? 0) = false) as E0 by lia.
    iApply wp_bind. iApply wp_bind. iApply wp_get_strings. iFrame "P". iIntros "P". rewrite E0. iApply wp_ptr_at; [by apply mid_lookup|]. iFrame "A". iIntros "A".
    iDestruct (strs_replace _ _ _ _ _ Ho (map_lookup Some _ _ _ Hs) with "S") as "[O S]". iApply wp_bind. iApply wp_free_str. iFrame "O".
    destruct (sees_table _ _ _ _ _ _ St (map_lookup _ _ _ _ Hx)) as (pn & En & Epn & Spn). iApply wp_bind. iApply (reads_ptr h pm _ i pn En); [by apply map_Some_lookup|]. iFrame "H". iIntros "H".
    iApply wp_bind. iApply wp_OSL_strdup; [exact Spn|]. iFrame "H". iIntros (new) "H O". iSpecialize ("S" with "O").
    iApply wp_bind. iApply wp_get_strings. iFrame "P". iIntros "P". unfold set_name. rewrite E0. iApply (wp_set_ptr q (List.map Some (ps ++ [NULL]))); [rewrite map_length app_length; cbn; unfold str in *; lia|]. iFrame "A". iIntros "A".
    iApply (IH (S i)); [lia|]. iFrame "H K". iExists (<[Z.to_nat (x - 1) := new]> ps). iFrame "P".
    rewrite list_set_insert. change (List.map (@Some str) (<[Z.to_nat (x - 1) := name]> l)) with (Some <$> <[Z.to_nat (x - 1) := name]> l). rewrite list_fmap_insert. iFrame "S".
    change (List.map (@Some ptr) (<[Z.to_nat (x - 1) := new]> ps ++ [NULL])) with (Some <$> (<[Z.to_nat (x - 1) := new]> ps ++ [NULL])). rewrite -insert_app_l; [|unfold str in *; lia]. rewrite list_fmap_insert. iFrame "A".
Qed.
Lemma sim_arrays_to_strings h p oa (Q : option strings → ptr → oprop) : sees h (match oa with None => nothing (p = NULL) | Some a => m_arrays p a end) →
  own h ∗ (∀ o q, own h -∗ M (m_strings q o) -∗ Q o q) ⊢ sim (osl_arrays_to_strings oa) (osl_arrays_to_strings_h p) Q.
Proof.
  intros Sp. iIntros "[H K]". unfold osl_arrays_to_strings, osl_arrays_to_strings_h. destruct oa as [a|].
  2:{ apply sees_nothing in Sp as ->. cbn [isnull NULL Z.eqb]. iApply sim_ret. iApply ("K" with "H"). cbn [m_strings]. by rewrite M_nothing. }
  apply sees_somewhere in Sp as ([[pi pm] ps] & [[Ep Hp]%sees_cell [Si St]%sees_beside]%sees_beside). rewrite (null_ne _ Hp). iApply sim_heap. iApply wp_bind. iApply wp_get_block_own; [exact Ep|]. iFrame "H". iIntros "H". iApply wp_ret. cbn beta iota.
  iApply sim_heap. iApply (wp_wand _ (λ m, <affine> ⌜m = max_id a⌝ ∗ own h)%I). iSplitL "H".
  { destruct a as [|x a]; cbn [max_id]; [iApply wp_ret; by iFrame|]. replace (1 <=? Z.of_nat (List.length (x :: a))) with true by (cbn [List.length]; lia).
    iApply wp_bind. iApply (reads_int h pi _ 0 (fst x) Si); [done|]. iFrame "H". iIntros "H". iApply (reads_max_id h pi (x :: a) Si _ 1); [cbn [List.length]; lia|]. iFrame "H". iIntros "H". by iFrame. }
  iIntros (m) "[-> H]". iApply sim_bind. iApply sim_strings_generate. iIntros (s q) "S". destruct a as [|x a].
  - replace (match s with Some _ => Ok (Some s) | None => Ok (Some s) end) with (Ok (Some s) : res (option strings)) by by destruct s. cbn [List.length]. iApply sim_ok. iApply wp_bind. cbn [pfor Z.of_nat Z.to_nat]. iApply wp_ret. iApply wp_ret. iApply ("K" with "H S").
  - destruct s as [l|]; [|iStopProof; apply sim_UB]. iDestruct "S" as (w) "S". destruct w as [ap ps']. iDestruct "S" as "(P & A & S)". rewrite !M_cell. rewrite Nat2Z.id.
    iApply sim_bind. iApply (sim_put_names h pi pm ps q ap (x :: a) Si St (List.length (x :: a)) 0 l); [lia|]. iFrame "H". iSplitL "P A S"; [iExists ps'; iFrame|]. iIntros (l') "H S". iApply sim_ret. iApply ("K" with "H").
    iDestruct "S" as (ps2) "(P & A & S)". iExists (ap, ps2). rewrite !M_beside !M_cell. iFrame.
Qed.

(** ** Scops *)
Lemma wp_set_parameters p a b c d e x (Q : _ → oprop) : p ↦ CBlock (BNames a b c d e) ∗ (p ↦ CBlock (BNames x b c d e) -∗ Q tt) ⊢ wp (set_parameters p x) Q.
Proof. iIntros "[N K]". iApply wp_bind. iApply wp_get_names. iFrame "N". iIntros "N". iApply wp_put. iFrame. Qed.
Lemma wp_set_arrays p a b c d e x (Q : _ → oprop) : p ↦ CBlock (BNames a b c d e) ∗ (p ↦ CBlock (BNames a b c d x) -∗ Q tt) ⊢ wp (set_arrays p x) Q.
Proof. iIntros "[N K]". iApply wp_bind. iApply wp_get_names. iFrame "N". iIntros "N". iApply wp_put. iFrame. Qed.
Lemma reads_has_URI h p l s : sees h (m_generics p l) → reads h (has_URI_h p s) (osl_generic_has_URI l s).
Proof.
  intros Sp. unfold has_URI_h. rewrite (sees_chain_null _ generic_nonnull _ _ _ Sp). destruct l as [|g l]; [apply reads_ret|]. apply sees_chain_cons in Sp as (n & Sg & _). intros Q. by apply (wp_has_URI h p g n s).
Qed.
(** The parameters *)
Lemma sim_parameters h pn a b c d e n p l (Q : names → unit → oprop) : names_in h a b c d e n → sees h (m_generics p l) →
  own h ∗ pn ↦ CBlock (BNames a b c d e) ∗ (∀ n' a', <affine> ⌜names_in h a' b c d e n'⌝ -∗ <affine> ⌜osl_generic_has_URI l (uri_of KStrings) = false → a' = a⌝ -∗ own h -∗ pn ↦ CBlock (BNames a' b c d e) -∗ Q n' tt) ⊢
  sim (with_parameters n l) (if osl_generic_has_URI l (uri_of KStrings) then x <== data_of p ;; set_parameters pn x else ret tt) Q.
Proof.
  intros Hn Sp. iIntros "(H & N & K)". unfold with_parameters. destruct l as [|g l].
  { cbn. iApply sim_ret. by iApply ("K" with "[%] [%] H N"). }
  change (osl_generic_has_URI (g :: l) (uri_of KStrings)) with (has_uri g (uri_of KStrings)). destruct (has_uri g (uri_of KStrings)); [|iApply sim_ret; by iApply ("K" with "[%] [%] H N")].
  apply sees_chain_cons in Sp as (nx & Sg & _). destruct g as [i da]. cbn [g_data]. destruct da as [da|]; [|iStopProof; apply sim_UB]. destruct da; try (iStopProof; apply sim_UB).
  destruct (sees_generic _ _ _ _ _ Sg) as (pd & pi & Ep & _ & _ & Sd). cbn [m_data] in Sd. iApply sim_heap. iApply wp_bind. iApply (reads_gen _ _ _ _ _ Ep). iFrame "H". iIntros "H". iApply wp_ret. cbn beta iota.
  iApply sim_ok. iApply wp_set_parameters. iFrame "N". iIntros "N". iApply ("K" with "[%] [%] H N"); [|done]. destruct Hn as (H1 & H2 & H3 & H4 & H5). by split_and!.
Qed.
(** The arrays *)
Definition arrays_made (h h' : heap obj) (ar e e' : ptr) : Prop :=
  if isnull ar then (h' = h ∧ e' = e)%type else (∃ s, own h' ⊢ own h ∗ M (m_strings e' (Some s)))%type.
Lemma sim_arrays h pn a b c d e n ar l (Q : names → unit → oprop) : names_in h a b c d e n → sees h (m_content ar (osl_generic_lookup l (uri_of KArrays))) →
  own h ∗ pn ↦ CBlock (BNames a b c d e) ∗
  (∀ n' e' h', <affine> ⌜h ⊆ h'⌝ -∗ <affine> ⌜names_in h' a b c d e' n'⌝ -∗ <affine> ⌜arrays_made h h' ar e e'⌝ -∗ own h' -∗ pn ↦ CBlock (BNames a b c d e') -∗ Q n' tt) ⊢
  sim (with_arrays n l) (if isnull ar then ret tt else x <== osl_arrays_to_strings_h ar ;; set_arrays pn x) Q.
Proof.
  intros Hn D. iIntros "(H & N & K)". unfold with_arrays. destruct (osl_generic_lookup l (uri_of KArrays)) as [da|]; cbn [m_content] in D.
  - destruct da as [| | | | | | | | x | | | | | | | | |]; try (iStopProof; apply sim_UB). cbn [m_data] in D.
    assert (isnull ar = false) as Ear. { apply sees_somewhere in D as ([[? ?] ?] & [[_ Hp]%sees_cell _]%sees_beside). by apply null_ne. } rewrite Ear.
    iApply sim_bind. iApply (sim_arrays_to_strings h ar (Some x)); [done|]. iFrame "H". iIntros (o q) "H S". destruct o as [s|]; [|iStopProof; apply sim_UB].
    iApply sim_ok. iApply wp_set_arrays. iFrame "N". iIntros "N". rewrite M_own. iDestruct "S" as (hs) "[%Hs S]". iDestruct (own_disjoint h hs with "[$H $S]") as "(%Hd & H & S)".
    iApply ("K" $! _ q (h ∪ hs) with "[%] [%] [%] [H S] N"); [apply map_union_subseteq_l| | |rewrite own_union; [iFrame|done]].
    + destruct Hn as (H1 & H2 & H3 & H4 & H5). split_and!; try (eapply sees_mono; [apply map_union_subseteq_l|done]). eapply sees_mono; [by apply map_union_subseteq_r|]. by apply sees_self.
    + unfold arrays_made. rewrite Ear. exists s. rewrite own_union; [|done]. iIntros "[H S]". iFrame "H". rewrite M_own. iExists hs. by iFrame.
  - apply sees_nothing in D as ->. cbn [isnull NULL Z.eqb]. iApply sim_ret. iApply ("K" $! n e h with "[%] [%] [%] H N"); [done|done|]. by split.
Qed.
Lemma sim_scop_one h pn a b c d e n p s nx (Q : str → str → oprop) : names_in h a b c d e n → sees h (m_scop_node p s nx) → scop_in_order s →
  own h ∗ pn ↦ CBlock (BNames a b c d e) ∗ (∀ t, own h -∗ pn ↦ CBlock (BNames a b c d e) -∗ Q t t) ⊢ sim (scop_print_one s n) (scop_print_one_h p pn) Q.
Proof.
  intros Hn (pl & pc & pp & ps & pr0 & pe & E & _ & Sl & Sc & Spa & Ss & Se)%sees_scop_node (Oc & Os). iIntros "(H & N & K)". unfold scop_print_one, scop_print_one_h.
  iApply sim_heap. iApply (reads_scop _ _ _ _ _ _ _ _ _ _ E). iFrame "H". iIntros "H". cbn beta iota.
  iApply sim_heap. iApply (reads_has_URI _ _ _ _ Spa). iFrame "H". iIntros "H". iApply sim_heap. iApply wp_get_names. iFrame "N". iIntros "N". cbn beta iota.
  iApply sim_bind. iApply (sim_parameters h pn); [exact Hn|done|]. iFrame "H N". iIntros (n1 a1) "%Hn1 %Ha H N".
  iApply sim_heap. iApply (wp_generic_lookup h pe (sc_ext s)); [done|]. iFrame "H". iIntros (ar) "%D H". apply data_at_lookup in D. iApply sim_heap. iApply wp_get_names. iFrame "N". iIntros "N". cbn beta iota.
  iApply sim_bind. iApply (sim_arrays h pn); [exact Hn1|exact D|]. iFrame "H N". iIntros (n2 e2 h2) "%Hh %Hn2 %Hm H N".
  pose proof (sees_mono _ _ _ Hh Sl) as Sl'. pose proof (sees_mono _ _ _ Hh Sc) as Sc'. pose proof (sees_mono _ _ _ Hh Spa) as Sp'. pose proof (sees_mono _ _ _ Hh Ss) as Ss'. pose proof (sees_mono _ _ _ Hh Se) as Se'.
  iApply sim_heap. iApply (reads_fetch_str _ _ _ Sl'). iFrame "H". iIntros "H".
  iApply sim_bind. iApply (sim_with_names h2 pn); [exact Hn2| |]. { intros h' Hh' Hg. apply sims_pprint; [by eapply sees_mono|exact Hg|done]. } iFrame "H N". iIntros (tc) "H N".
  iApply sim_heap. iApply (reads_has_URI _ _ _ _ Sp'). iFrame "H". iIntros "H".
  iApply sim_bind. iApply (sim_generic_print h2); [exact Sp'|]. iFrame "H". iIntros (tp) "H".
  iApply sim_heap. iApply (reads_statement_number _ _ _ Ss'). iFrame "H". iIntros "H".
  iApply sim_bind. iApply (sim_with_names h2 pn); [exact Hn2| |]. { intros h' Hh' Hg. apply sims_statement_pprint; [by eapply sees_mono|exact Hg|done]. } iFrame "H N". iIntros (ts) "H N".
  iApply sim_bind. iApply sim_mono. iSplitL "H".
  { instantiate (1 := λ x y, own h2 ∗ <affine> ⌜y = match sc_ext s with [] => [] | _ => rule_title (lit "Extensions") ++ x end⌝). cbn beta. rewrite (sees_chain_null _ generic_nonnull _ _ _ Se'). destruct (sc_ext s) as [|g l]; [iApply sim_ret; by iFrame|].
    rewrite -(bind_ok (osl_generic_sprint (g :: l))). iApply sim_bind. iApply (sim_generic_print h2); [exact Se'|]. iFrame "H". iIntros (t) "H". iApply sim_ret. by iFrame. }
  iIntros (te te') "_ [H ->]". iApply sim_heap. iApply (wp_wand _ (λ _, pn ↦ CBlock (BNames a b c d e2))). iSplitL "N".
  { destruct (osl_generic_has_URI (sc_params s) (uri_of KStrings)); [|rewrite Ha; [by iApply wp_ret|done]]. iApply wp_set_parameters. iFrame "N". by iIntros "N". }
  iIntros (u) "N". clear u. iApply sim_heap. iApply (wp_wand _ (λ _, own h ∗ pn ↦ CBlock (BNames a b c d e))%I). iSplitL "H N".
  { unfold arrays_made in Hm. destruct (isnull ar); [destruct Hm as [-> ->]; iApply wp_ret; iFrame|]. destruct Hm as [x Hm]. iDestruct (Hm with "H") as "[H X]".
    iApply wp_bind. iApply wp_get_names. iFrame "N". iIntros "N". cbn beta iota. iApply wp_bind. iApply wp_strings_free. iFrame "X". iApply wp_set_arrays. iFrame "N". iIntros "N". iFrame. }
  iIntros (u) "[H N]". clear u. iApply sim_ret. iApply ("K" with "H N").
Qed.
Lemma sim_scops_loop h pn a b c d e n l : names_in h a b c d e n → ∀ p fuel (Q : str → str → oprop), sees h (m_scop_list p l) → Forall scop_in_order l → (List.length l < fuel)%nat →
  own h ∗ pn ↦ CBlock (BNames a b c d e) ∗ (∀ t, own h -∗ pn ↦ CBlock (BNames a b c d e) -∗ Q t t) ⊢ sim (print_all (λ s, scop_print_one s n) l) (scops_print_loop fuel p pn) Q.
Proof.
  intros Hn. induction l as [|s l IH]; intros p [|fuel] Q Sp Ho Hf; try (cbn in Hf; lia); cbn [scops_print_loop print_all]; rewrite (sees_chain_null _ scop_node_nonnull _ _ _ Sp); iIntros "(H & N & K)".
  - iApply sim_ret. iApply ("K" with "H N").
  - apply sees_chain_cons in Sp as (nx & Ss & Sl). apply Forall_cons_1 in Ho as [Os Ol]. iApply sim_bind. iApply (sim_scop_one h); [done|done|done|]. iFrame "H N". iIntros (t) "H N".
    destruct (sees_scop_node _ _ _ _ Ss) as (pl & pc & pp & ps & pr0 & pe & E & _). iApply sim_heap. iApply (reads_scop _ _ _ _ _ _ _ _ _ _ E). iFrame "H". iIntros "H". cbn beta iota.
    iApply sim_bind. iApply (IH nx fuel); [done|done|cbn in Hf; lia|]. iFrame "H N". iIntros (r) "H N". iApply sim_ret. iApply ("K" with "H N").
Qed.
Lemma sim_scops h pn n l p (Q : str → str → oprop) : sees h (m_scop_list p l) → Forall scop_in_order l →
  own h ∗ M (m_names pn n) ∗ (∀ t, own h -∗ M (m_names pn n) -∗ Q t t) ⊢ sim (print_all (λ s, scop_print_one s n) l) (loop (λ f, scops_print_loop f p pn)) Q.
Proof.
  intros Sp Ho. iIntros "(H & N & K)". iDestruct (names_open h pn n with "[$H $N]") as (H a b c d e) "((%Hh & %Hn & %Hc) & H & N)". iCombine "N K" as "K". iCombine "H K" as "H". iStopProof.
  assert (sees H (m_scop_list p l)) as Sp' by by eapply sees_mono.
  apply (sim_loop_on _ (List.length l)); [eapply own_size; [apply scops_size|exact Sp']|]. intros f Hf. iIntros "(H & N & K)". iApply (sim_scops_loop H); [done|done|done|done|]. iFrame "H N". iIntros (t) "H N".
  iDestruct (Hc with "[$H $N]") as "[H N]". iApply ("K" with "H N").
Qed.
Lemma sims_scop_print h p l : sees h (m_scop_list p l) → Forall scop_in_order l → sims h (osl_scop_print l) (osl_scop_print_h p).
Proof.
  intros Sp Ho Q. iIntros "[H K]". unfold osl_scop_print, osl_scop_print_h. rewrite (sees_chain_null _ scop_node_nonnull _ _ _ Sp). destruct l as [|s l]; [iApply sim_ret; iApply ("K" with "H")|].
  iApply sim_bind. iApply sims_scop_check; [exact Sp|]. iFrame "H". iIntros (x) "H". unfold osl_scop_names, osl_scop_names_h. iApply sim_bind. iApply sim_bind. iApply sims_scop_attributes; [exact Sp|]. iFrame "H". iIntros (at0) "H". iApply sim_names_of. iIntros (n q) "N".
  iApply sim_bind. iApply sim_scops; [exact Sp|done|]. iFrame "H N". iIntros (t) "H N". iApply sim_ok. iApply wp_bind. iApply wp_names_free. iFrame "N". iApply wp_ret. iApply ("K" with "H").
Qed.
End SCOPS.
