(** * SaveHeapProofs4: the text of lists of relations and of statements *)
From stdpp Require Import gmap.
From iris.proofmode Require Import tactics.
From Coq Require Import ZifyBool ZifyNat.
From Verif Require Import Base IntModel VectorModel RelationModel UtilModel StringsModel RelTextModel ExtModel Spec RelSpec HeapModel HeapObjects HeapSpec HeapLogic HeapProofs ScopModel PayloadModel PayloadSpec PayloadProofs PayloadProofs2 PayloadProofs3 PayloadProofs4 PayloadProofs5 PayloadProofs6 MatModel MatSpec MatProofs MatProofs4 MatProofs6 FullModel FullSpec FullProofs FullProofs2 FullProofs4 PrintHeapModel PrintHeapSpec PrintHeapProofs PrintHeapProofs3 ReadHeapProofs SaveHeapModel SaveHeapSpec SaveHeapProofs SaveHeapProofs2 SaveHeapProofs3.
Local Open Scope string_scope.
Local Open Scope list_scope.
Local Open Scope Z_scope.
Local Open Scope bi_scope.
Notation loop := HeapModel.loop.
Notation cell := PayloadSpec.cell.

Section STATEMENTS.
Context {cfg : config} {al : Allocator obj}.

(** ** Only the elements of the lists of names matter *)
Definition norm (n : names) : names :=
  Names (Some (elems (n_params n))) (Some (elems (n_iters n))) (Some (elems (n_scatt n))) (Some (elems (n_locals n))) (Some (elems (n_arrays n))).
Lemma print_parts_norm nb n u : ∀ part, print_parts nb u part (norm n) = print_parts nb u part n.
Proof. induction u as [|r u IH]; intros part; [done|]. cbn [print_parts]. change (print_part nb (r :: u) r part (norm n)) with (print_part nb (r :: u) r part n). by rewrite IH. Qed.
Lemma spprint_norm u n : osl_relation_spprint u (Some (norm n)) = osl_relation_spprint u (Some n).
Proof.
  unfold osl_relation_spprint. replace (osl_relation_spprint_polylib u (Some (norm n))) with (osl_relation_spprint_polylib u (Some n)); [done|].
  unfold osl_relation_spprint_polylib. destruct u as [|r u]; [done|]. cbn [bind]. by rewrite print_parts_norm.
Qed.
Lemma print_elts_norm n l : print_elts l (Some (norm n)) = print_elts l (Some n).
Proof. induction l as [|u l IH]; [done|]. cbn [print_elts]. by rewrite spprint_norm IH. Qed.
Lemma norm_iterators n b : norm (with_iterators n b) = norm (with_iterators (norm n) b).
Proof. by destruct b as [[[bi|] be]|]. Qed.
Lemma spprint_same u n n' : norm n = norm n' → osl_relation_spprint u (Some n) = osl_relation_spprint u (Some n').
Proof. intros H. by rewrite -spprint_norm H spprint_norm. Qed.
Lemma pprint_elts_same l n n' : norm n = norm n' → osl_relation_list_pprint_elts l (Some n) = osl_relation_list_pprint_elts l (Some n').
Proof. intros H. unfold osl_relation_list_pprint_elts. by rewrite -(print_elts_norm n) H print_elts_norm. Qed.
Lemma pprint_one_same k s n n' : norm n = norm n' → statement_pprint_one k s n = statement_pprint_one k s n'.
Proof.
  intros H. unfold statement_pprint_one. destruct (body_of (st_ext s)) as [b| | |]; cbn [bind]; [|done..].
  assert (norm (with_iterators n b) = norm (with_iterators n' b)) as Hb by by rewrite norm_iterators H -norm_iterators.
  by rewrite !(spprint_same _ _ _ Hb) (pprint_elts_same _ _ _ Hb).
Qed.
Lemma statements_pprint_same n n' l : norm n = norm n' → ∀ k, statements_pprint k l n = statements_pprint k l n'.
Proof. intros H. induction l as [|s l IH]; intros k; [done|]. cbn [statements_pprint]. by rewrite (pprint_one_same _ _ _ _ H) IH. Qed.

(** ** Lists of relations *)
Lemma sims_pprint h a u pn on : sees h (m_relation a u) → names_given h pn on → Forall dims_in_order u → sims h (osl_relation_spprint u on) (osl_relation_pprint_h a pn).
Proof. intros H1 H2 H3 Q. by apply sim_pprint. Qed.
Lemma sims_map {A B} h (v : res A) (f : A → B) c : sims h v c → sims h (bind v (λ x, Ok (f x))) (x <== c ;; ret (f x)).
Proof. intros H. apply sims_bind; [done|]. intros x. apply sims_ret. Qed.
Lemma sims_elts_loop h pn on l : names_given h pn on → ∀ p fuel, sees h (m_relations p l) → Forall (Forall dims_in_order) l → (List.length l < fuel)%nat →
  sims h (print_elts l on) (pprint_elts_loop fuel p pn).
Proof.
  intros Hn. induction l as [|u l IH]; intros p [|fuel] Sp Hd Hf; try (cbn in Hf; lia); cbn [pprint_elts_loop print_elts]; rewrite (sees_chain_null _ element_nonnull _ _ _ Sp).
  - apply sims_ret.
  - apply sees_chain_cons in Sp as (n & (e & E & _ & Su)%sees_element & Sl). apply Forall_cons_1 in Hd as [Hu Hd]. eapply sims_reads; [exact (reads_node _ _ _ _ E)|]. cbn beta iota.
    apply sims_bind.
    + rewrite (sees_relation_null _ _ _ Su) (sees_chain_null _ element_nonnull _ _ _ Sl). destruct u as [|r u]; [apply sims_ret|].
      replace (match l with [] => [] | _ :: _ => [c_nl] end) with (if match l with [] => true | _ :: _ => false end then [] else [c_nl]) by by destruct l. apply sims_map. by apply sims_pprint.
    + intros t. apply sims_map. apply IH; [done|done|cbn in Hf; lia].
Qed.
Lemma sims_pprint_elts h p pn on l : names_given h pn on → sees h (m_relations p l) → Forall (Forall dims_in_order) l →
  sims h (osl_relation_list_pprint_elts l on) (osl_relation_list_pprint_elts_h p pn).
Proof.
  intros Hn Sp Hd. eapply sims_reads; [by apply reads_count|]. unfold osl_relation_list_pprint_elts. destruct (0 <? osl_relation_list_count l); [|apply sims_ret].
  apply (sims_loop h (List.length l)); [eapply own_size; [apply relations_size|done]|]. intros k Hk. by apply sims_elts_loop.
Qed.

(** ** The names beside the rest of the memory *)
Definition names_in (h : heap obj) (a b c d e : ptr) (n : names) : Prop :=
  sees h (m_strings a (Some (n_params n))) ∧ sees h (m_strings b (Some (n_iters n))) ∧ sees h (m_strings c (Some (n_scatt n))) ∧
  sees h (m_strings d (Some (n_locals n))) ∧ sees h (m_strings e (Some (n_arrays n))).
Lemma names_in_mono h h' a b c d e n : h ⊆ h' → names_in h a b c d e n → names_in h' a b c d e n.
Proof. intros Hh (H1 & H2 & H3 & H4 & H5). split_and!; by eapply sees_mono. Qed.
Lemma own_cell p v : p ↦ v ⊣⊢ <affine> ⌜p ≠ NULL⌝ ∗ own {[p := v]}.
Proof.
  constructor. intros h. split.
  - intros [-> Hp]. exists ∅, {[p := v]}. rewrite left_id_L. split_and!; [done|apply map_disjoint_empty_l|by split|done].
  - intros (h1 & h2 & -> & Hd & [-> Hp] & ->). rewrite left_id_L. by split.
Qed.
Lemma sim_beside {A} h pn w (v : res A) c (Q : A → A → oprop) : (pn ≠ NULL → sims (h ∪ {[pn := w]}) v c) → own h ∗ pn ↦ w ∗ (∀ x, own h -∗ pn ↦ w -∗ Q x x) ⊢ sim v c Q.
Proof.
  intros H. iIntros "(H & N & K)". iDestruct (own_cell with "N") as "[%Hp N]". iDestruct (own_disjoint h {[pn := w]} with "[$H $N]") as "(%Hd & H & N)".
  iApply H; [done|]. iSplitL "H N"; [rewrite own_union; [iFrame|done]|]. iIntros (x) "H". rewrite own_union; [|done]. iDestruct "H" as "[H N]". iApply ("K" with "H"). rewrite own_cell. by iFrame.
Qed.
Lemma names_given_in h pn a b c d e n : pn ≠ NULL → names_in h a b c d e n → h ##ₘ {[pn := CBlock (BNames a b c d e)]} → names_given (h ∪ {[pn := CBlock (BNames a b c d e)]}) pn (Some n).
Proof.
  intros Hp (H1 & H2 & H3 & H4 & H5) Hd. split; [done|]. exists a, b, c, d, e. split; [apply lookup_union_Some_r; [done|apply lookup_singleton]|].
  split_and!; (eapply sees_mono; [apply map_union_subseteq_l|done]).
Qed.
Lemma sim_with_names {A} h pn a b c d e n (v : res A) p (Q : A → A → oprop) : names_in h a b c d e n →
  (∀ h', h ⊆ h' → names_given h' pn (Some n) → sims h' v p) →
  own h ∗ pn ↦ CBlock (BNames a b c d e) ∗ (∀ x, own h -∗ pn ↦ CBlock (BNames a b c d e) -∗ Q x x) ⊢ sim v p Q.
Proof.
  intros Hn H. iIntros "(H & N & K)". iDestruct (own_cell with "N") as "[%Hp N]". iDestruct (own_disjoint h with "[$H $N]") as "(%Hd & H & N)".
  iApply (sim_beside h pn). { intros _. apply H; [apply map_union_subseteq_l|by apply names_given_in]. } iFrame "H K". rewrite own_cell. by iFrame.
Qed.
Lemma names_open h pn n : own h ∗ M (m_names pn n) ⊢ ∃ H a b c d e, <affine> ⌜(h ⊆ H ∧ names_in H a b c d e n ∧ (own H ∗ pn ↦ CBlock (BNames a b c d e) ⊢ own h ∗ M (m_names pn n)))%type⌝ ∗
  own H ∗ pn ↦ CBlock (BNames a b c d e).
Proof.
  iIntros "[H (%w & N)]". destruct w as [[[[a b] c] d] e]. iDestruct "N" as "[N S]". rewrite M_cell.
  rewrite (M_own (_ ⋆ _)). iDestruct "S" as (hs) "[%Hs S]". iDestruct (own_disjoint h hs with "[$H $S]") as "(%Hd & H & S)".
  iExists (h ∪ hs), a, b, c, d, e. rewrite own_union; [|done]. iFrame "H N S". iPureIntro. split; [apply map_union_subseteq_l|]. split.
  - apply (names_in_mono hs); [by apply map_union_subseteq_r|]. apply (sees_self hs) in Hs. apply sees_beside in Hs as [S1 Hs]. apply sees_beside in Hs as [S2 Hs]. apply sees_beside in Hs as [S3 Hs]. apply sees_beside in Hs as [S4 S5]. done.
  - iIntros "[[H S] N]". iFrame "H". iExists (a, b, c, d, e). rewrite M_beside M_cell. iFrame "N". rewrite M_own. iExists hs. by iFrame.
Qed.
Lemma wp_get_names p a b c d e (Q : _ → oprop) : p ↦ CBlock (BNames a b c d e) ∗ (p ↦ CBlock (BNames a b c d e) -∗ Q (a, b, c, d, e)) ⊢ wp (get_names p) Q.
Proof. iIntros "[N K]". iApply wp_bind. iApply wp_get_block. iFrame "N". iIntros "N". iApply wp_ret. by iApply "K". Qed.
Lemma wp_set_iterators p a b c d e x (Q : _ → oprop) : p ↦ CBlock (BNames a b c d e) ∗ (p ↦ CBlock (BNames a x c d e) -∗ Q tt) ⊢ wp (set_iterators p x) Q.
Proof. iIntros "[N K]". iApply wp_bind. iApply wp_get_names. iFrame "N". iIntros "N". iApply wp_put. iFrame. Qed.

(** ** Statements *)
Lemma sim_statement_one h pn a b c d e n k p s nx (Q : str → str → oprop) : names_in h a b c d e n → sees h (m_stmt p s nx) → stmt_in_order s →
  own h ∗ pn ↦ CBlock (BNames a b c d e) ∗ (∀ t, own h -∗ pn ↦ CBlock (BNames a b c d e) -∗ Q t t) ⊢ sim (statement_pprint_one k s n) (statement_pprint_one_h k p pn) Q.
Proof.
  intros Hn (pd & pc & pa & pe & E & _ & Sd & Sc & Sa & Se)%sees_stmt (Od & Oc & Oa). iIntros "(H & N & K)". unfold statement_pprint_one, statement_pprint_one_h.
  iApply sim_heap. iApply (reads_stmt _ _ _ _ _ _ _ E). iFrame "H". iIntros "H". cbn beta iota.
  iApply sim_bind. iApply sim_iterators; [done|]. iFrame "H". iIntros (bo it) "%Hit H". cbv zeta. iApply sim_heap. iApply wp_get_names. iFrame "N". iIntros "N". cbn beta iota.
  set (b' := if isnull it then b else it). iApply sim_heap. iApply (wp_wand _ (λ _, pn ↦ CBlock (BNames a b' c d e))). iSplitL "N".
  { unfold b'. destruct (isnull it); [by iApply wp_ret|]. iApply wp_set_iterators. iFrame "N". by iIntros "N". }
  iIntros (u) "N". clear u.
  assert (names_in h a b' c d e (with_iterators n bo)) as Hn'.
  { destruct Hn as (H1 & H2 & H3 & H4 & H5). unfold b'. destruct bo as [[[bi|] be]|]; cbn [iterators_at] in Hit; [destruct Hit as [-> Si]|rewrite Hit..]; by split_and!. }
  iApply sim_heap. iApply (reads_count _ _ _ Sa). iFrame "H". iIntros "H". rewrite (sees_relation_null _ _ _ Sd) (sees_relation_null _ _ _ Sc).
  iApply sim_bind. iApply (sim_with_names h pn a b' c d e); [exact Hn'| |]. { intros h' Hh Hg. apply sims_pprint; [by eapply sees_mono|done|done]. } iFrame "H N". iIntros (td) "H N".
  iApply sim_bind. iApply (sim_with_names h pn a b' c d e); [exact Hn'| |]. { intros h' Hh Hg. apply sims_pprint; [by eapply sees_mono|done|done]. } iFrame "H N". iIntros (ts) "H N".
  iApply sim_bind. iApply (sim_with_names h pn a b' c d e); [exact Hn'| |]. { intros h' Hh Hg. apply sims_pprint_elts; [done|by eapply sees_mono|done]. } iFrame "H N". iIntros (ta) "H N".
  iApply sim_heap. iApply wp_generic_count; [done|]. iFrame "H". iIntros "H". change (Z.of_nat (List.length (st_ext s))) with (osl_generic_number (st_ext s)).
  iApply sim_bind. iApply sim_mono. iSplitL "H". { instantiate (1 := λ x y, own h ∗ <affine> ⌜x = y⌝). cbn beta. destruct (0 <? osl_generic_number (st_ext s)); [|iApply sim_ret; by iFrame]. iApply (sim_generic_print h); [done|]. iFrame "H". iIntros (t) "H". by iFrame. }
  iIntros (te te') "_ [H <-]". iApply sim_heap. iApply (wp_wand _ (λ _, pn ↦ CBlock (BNames a b c d e))). iSplitL "N".
  { unfold b'. destruct (isnull it); [by iApply wp_ret|]. iApply wp_set_iterators. iFrame "N". by iIntros "N". }
  iIntros (u) "N". clear u. iApply sim_ok. iApply wp_ret. unfold is_null. iApply ("K" with "H N").
Qed.
Lemma sim_statements_loop h pn a b c d e n l : names_in h a b c d e n → ∀ k p fuel (Q : str → str → oprop), sees h (m_stmts p l) → Forall stmt_in_order l → (List.length l < fuel)%nat →
  own h ∗ pn ↦ CBlock (BNames a b c d e) ∗ (∀ t, own h -∗ pn ↦ CBlock (BNames a b c d e) -∗ Q t t) ⊢ sim (statements_pprint k l n) (statements_pprint_loop fuel k p pn) Q.
Proof.
  intros Hn. induction l as [|s l IH]; intros k p [|fuel] Q Sp Ho Hf; try (cbn in Hf; lia); cbn [statements_pprint_loop statements_pprint]; rewrite (sees_chain_null _ stmt_nonnull _ _ _ Sp); iIntros "(H & N & K)".
  - iApply sim_ret. iApply ("K" with "H N").
  - apply sees_chain_cons in Sp as (nx & Ss & Sl). apply Forall_cons_1 in Ho as [Os Ol]. iApply sim_bind. iApply (sim_statement_one h); [done|done|done|]. iFrame "H N". iIntros (t) "H N".
    destruct (sees_stmt _ _ _ _ Ss) as (pd & pc & pa & pe & E & _). iApply sim_heap. iApply (reads_stmt _ _ _ _ _ _ _ E). iFrame "H". iIntros "H". cbn beta iota.
    iApply sim_bind. iApply (IH (k + 1) nx fuel); [done|done|cbn in Hf; lia|]. iFrame "H N". iIntros (r) "H N". iApply sim_ret. iApply ("K" with "H N").
Qed.
Lemma sim_statements h pn n l k p (Q : str → str → oprop) : sees h (m_stmts p l) → Forall stmt_in_order l →
  own h ∗ M (m_names pn n) ∗ (∀ t, own h -∗ M (m_names pn n) -∗ Q t t) ⊢ sim (statements_pprint k l n) (loop (λ f, statements_pprint_loop f k p pn)) Q.
Proof.
  intros Sp Ho. iIntros "(H & N & K)". iDestruct (names_open h pn n with "[$H $N]") as (H a b c d e) "((%Hh & %Hn & %Hc) & H & N)". iCombine "N K" as "K". iCombine "H K" as "H". iStopProof.
  assert (sees H (m_stmts p l)) as Sp' by by eapply sees_mono.
  apply (sim_loop_on _ (List.length l)); [eapply own_size; [apply stmts_size|exact Sp']|]. intros f Hf. iIntros "(H & N & K)". iApply (sim_statements_loop H); [done|done|done|done|]. iFrame "H N". iIntros (t) "H N".
  iDestruct (Hc with "[$H $N]") as "[H N]". iApply ("K" with "H N").
Qed.
Lemma clone_norm (x : strings) : (∃ y, osl_strings_clone (Some x) = Some y ∧ Some (elems y) = Some (elems x) :> strings)%type.
Proof. unfold osl_strings_clone. destruct (osl_strings_size (Some x) =? 0) eqn:E; eexists; (split; [done|]); [|done]. destruct x as [[|? ?]|]; [done|unfold osl_strings_size, zlength in E; cbn in E; lia|done]. Qed.
Lemma wp_clone_names h p n (Q : _ → oprop) : p ≠ NULL → names_at h p n → own h ∗ (∀ q n', <affine> ⌜norm n = norm n'⌝ -∗ own h -∗ M (m_names q n') -∗ Q q) ⊢ wp (osl_names_clone_f p) Q.
Proof.
  intros Hp (a & b & c & d & e & E & S1 & S2 & S3 & S4 & S5). unfold osl_names_clone_f. rewrite (null_ne p Hp). iIntros "[H K]". iApply wp_bind. iApply wp_malloc. iIntros (q) "N". getown E.
  destruct (clone_norm (n_params n)) as (x1 & E1 & F1). destruct (clone_norm (n_iters n)) as (x2 & E2 & F2). destruct (clone_norm (n_scatt n)) as (x3 & E3 & F3). destruct (clone_norm (n_locals n)) as (x4 & E4 & F4). destruct (clone_norm (n_arrays n)) as (x5 & E5 & F5).
  iApply wp_bind. iApply wp_strings_clone; [done|]. iFrame "H". iIntros (a') "H XA". rewrite E1. iApply wp_bind. iApply wp_strings_clone; [done|]. iFrame "H". iIntros (b') "H XB". rewrite E2.
  iApply wp_bind. iApply wp_strings_clone; [done|]. iFrame "H". iIntros (c') "H XC". rewrite E3. iApply wp_bind. iApply wp_strings_clone; [done|]. iFrame "H". iIntros (d') "H XD". rewrite E4.
  iApply wp_bind. iApply wp_strings_clone; [done|]. iFrame "H". iIntros (e') "H XE". rewrite E5. iApply wp_bind. iApply wp_put. iFrame "N". iIntros "N". iApply wp_ret.
  iApply ("K" $! q (Names x1 x2 x3 x4 x5) with "[%] H").
  - unfold norm. cbn. by rewrite F1 F2 F3 F4 F5.
  - iExists (a', b', c', d', e'). rewrite !M_beside M_cell. iFrame.
Qed.
Lemma sim_names_of a (Q : names → ptr → oprop) : (∀ x p, M (m_names p x) -∗ Q x p) ⊢ sim (names_of a) (names_of_h a) Q.
Proof. apply sim_names_generate. Qed.
Lemma sims_statement_pprint h p l pn on : sees h (m_stmts p l) → names_given h pn on → Forall stmt_in_order l → sims h (osl_statement_pprint l on) (osl_statement_pprint_h p pn).
Proof.
  intros Sp Hn Ho Q. iIntros "[H K]". unfold osl_statement_pprint, osl_statement_pprint_h. destruct on as [n|]; cbn [names_given] in Hn.
  - destruct Hn as [Hp Hn]. rewrite (null_ne _ Hp). iApply sim_heap. iApply wp_clone_names; [done|done|]. iFrame "H". iIntros (q n') "%E H N". cbn [bind]. rewrite (statements_pprint_same _ _ _ E) -(bind_ok (statements_pprint 1 l n')).
    iApply sim_bind. iApply sim_statements; [done|done|]. iFrame "H N". iIntros (t) "H N". iApply sim_ok. iApply wp_bind. iApply wp_names_free. iFrame "N". iApply wp_ret. iApply ("K" with "H").
  - subst pn. cbn [isnull NULL Z.eqb]. unfold osl_statement_names, osl_statement_names_h. iApply sim_bind. iApply sim_bind. iApply sims_statement_attributes; [done|]. iFrame "H". iIntros (x) "H". iApply sim_names_of. iIntros (n q) "N".
    rewrite -(bind_ok (statements_pprint 1 l n)). iApply sim_bind. iApply sim_statements; [done|done|]. iFrame "H N". iIntros (t) "H N". iApply sim_ok. iApply wp_bind. iApply wp_names_free. iFrame "N". iApply wp_ret. iApply ("K" with "H").
Qed.
End STATEMENTS.
