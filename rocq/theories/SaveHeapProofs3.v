(** * SaveHeapProofs3: the functions of statements and scops that only read *)
From stdpp Require Import gmap.
From iris.proofmode Require Import tactics.
From Coq Require Import ZifyBool ZifyNat.
From Verif Require Import Base IntModel VectorModel RelationModel UtilModel StringsModel RelTextModel ExtModel Spec RelSpec HeapModel HeapObjects HeapSpec HeapLogic HeapProofs ScopModel PayloadModel PayloadSpec PayloadProofs PayloadProofs2 PayloadProofs3 PayloadProofs4 PayloadProofs5 PayloadProofs6 MatModel MatSpec MatProofs MatProofs4 MatProofs6 FullModel FullSpec FullProofs FullProofs2 FullProofs4 PrintHeapModel PrintHeapSpec PrintHeapProofs PrintHeapProofs3 ReadHeapProofs SaveHeapModel SaveHeapSpec SaveHeapProofs SaveHeapProofs2.
Local Open Scope string_scope.
Local Open Scope list_scope.
Local Open Scope Z_scope.
Local Open Scope bi_scope.
Notation loop := HeapModel.loop.
Notation cell := PayloadSpec.cell.

Section READ.
Context {cfg : config} {al : Allocator obj}.

(** The program [c] computes [v] and changes nothing. *)
Definition sims {A} (h : heap obj) (v : res A) (c : oprog A) : Prop := ∀ Q : A → A → oprop, own h ∗ (∀ x, own h -∗ Q x x) ⊢ sim v c Q.
Lemma sims_bind {A B} h (v : res A) c (g : A → res B) f : sims h v c → (∀ x, sims h (g x) (f x)) → sims h (bind v g) (pbind c f).
Proof. intros H1 H2 Q. iIntros "[H K]". iApply sim_bind. iApply H1. iFrame "H". iIntros (x) "H". iApply H2. iFrame. Qed.
Lemma sims_reads {A B} h (c : oprog A) x (v : res B) f : reads h c x → sims h v (f x) → sims h v (pbind c f).
Proof. intros H1 H2 Q. iIntros "[H K]". iApply sim_heap. iApply H1. iFrame "H". iIntros "H". iApply H2. iFrame. Qed.
Lemma sims_ret {A} h (x : A) : sims h (Ok x) (ret x).
Proof. intros Q. iIntros "[H K]". iApply sim_ret. by iApply "K". Qed.
Lemma sims_lift {A} h (v : res A) : sims h v (lift v).
Proof. intros Q. iIntros "[H K]". iApply sim_lift. iIntros (x) "_". by iApply "K". Qed.
Lemma sims_loop {A} h k (v : res A) f : (own h ⊢ size_ge k) → (∀ n, (k < n)%nat → sims h v (f n)) → sims h v (loop f).
Proof. intros Hk H Q. apply (sim_loop_on v k); [done|]. intros n Hn. by apply H. Qed.
Lemma reads_loop {A} h k (x : A) f : (own h ⊢ size_ge k) → (∀ n, (k < n)%nat → reads h (f n) x) → reads h (loop f) x.
Proof. intros Hk H Q. apply (wp_loop_on k); [done|]. intros n Hn. by apply H. Qed.

(** ** The shape of lists, statements and scops *)
Lemma sees_node h p e n : sees h (m_node p e n) → (h !! p = Some (CList e n) ∧ p ≠ NULL)%type.
Proof. intros (h' & Hs & -> & Hp). split; [|done]. eapply lookup_weaken; [|exact Hs]. apply lookup_singleton. Qed.
Lemma M_node p e n : M (m_node p e n) ⊣⊢ p ↦ CList e n.
Proof. constructor. intros h. split; [intros [-> Hp]; split; done|intros [-> Hp]; split; done]. Qed.
Lemma sees_element h p u n : sees h (m_element p u n) → (∃ e, h !! p = Some (CList e n) ∧ p ≠ NULL ∧ sees h (m_relation e u))%type.
Proof. intros (e & [[H1 H2]%sees_node H3]%sees_beside)%sees_somewhere. by exists e. Qed.
Lemma element_nonnull h p u n : sees h (m_element p u n) → p ≠ NULL.
Proof. by intros (e & _ & ? & _)%sees_element. Qed.
Lemma element_size p u n : M (m_element p u n) ⊢ size_ge 1.
Proof.
  apply size_somewhere. intros e. apply size_first. constructor. intros h [-> _]. change (1 ≤ size ({[p := CList e n]} : heap obj))%nat. rewrite map_size_singleton. lia.
Qed.
Lemma relations_size p l : M (m_relations p l) ⊢ size_ge (List.length l).
Proof. apply (chain_length_size m_element l element_size). Qed.
Lemma sees_stmt h p s n : sees h (m_stmt p s n) → (∃ d c a e, h !! p = Some (CBlock (BStmt d c a e n)) ∧ p ≠ NULL ∧
  sees h (m_relation d (st_domain s)) ∧ sees h (m_relation c (st_scattering s)) ∧ sees h (m_relations a (st_access s)) ∧ sees h (m_generics e (st_ext s)))%type.
Proof.
  intros ([[[d c] a] e] & H)%sees_somewhere. exists d, c, a, e. apply sees_beside in H as [[H1 H2]%sees_cell H].
  apply sees_beside in H as [H3 H]. apply sees_beside in H as [H4 H]. apply sees_beside in H as [H5 H]. done.
Qed.
Lemma stmt_nonnull h p s n : sees h (m_stmt p s n) → p ≠ NULL.
Proof. by intros (d & c & a & e & _ & ? & _)%sees_stmt. Qed.
Lemma stmt_size p s n : M (m_stmt p s n) ⊢ size_ge 1.
Proof. apply size_somewhere. intros [[[d c] a] e]. apply size_first, size_cell. Qed.
Lemma stmts_size p l : M (m_stmts p l) ⊢ size_ge (List.length l).
Proof. apply (chain_length_size m_stmt l stmt_size). Qed.
Lemma sees_scop_node h p s n : sees h (m_scop_node p s n) → (∃ l c pa st r e, h !! p = Some (CBlock (BScop (sc_version s) l c pa st r e n)) ∧ p ≠ NULL ∧
  sees h (m_str l (sc_language s)) ∧ sees h (m_relation c (sc_context s)) ∧ sees h (m_generics pa (sc_params s)) ∧ sees h (m_stmts st (sc_stmts s)) ∧ sees h (m_generics e (sc_ext s)))%type.
Proof.
  intros ([[[[[l c] pa] st] r] e] & H)%sees_somewhere. exists l, c, pa, st, r, e. apply sees_beside in H as [[H1 H2]%sees_cell H].
  apply sees_beside in H as [H3 H]. apply sees_beside in H as [H4 H]. apply sees_beside in H as [H5 H]. apply sees_beside in H as [H6 H]. apply sees_beside in H as [H7 H]. done.
Qed.
Lemma scop_node_nonnull h p s n : sees h (m_scop_node p s n) → p ≠ NULL.
Proof. by intros (l & c & pa & st & r & e & _ & ? & _)%sees_scop_node. Qed.
Lemma scop_node_size p s n : M (m_scop_node p s n) ⊢ size_ge 1.
Proof. apply size_somewhere. intros [[[[[l c] pa] st] r] e]. apply size_first, size_cell. Qed.
Lemma scops_size p l : M (m_scop_list p l) ⊢ size_ge (List.length l).
Proof. apply (chain_length_size m_scop_node l scop_node_size). Qed.

(** ** Reading nodes *)
Lemma reads_node h p e n : h !! p = Some (CList e n) → reads h (HeapObjects.get_list p) (e, n).
Proof. intros E. apply (reads_bind h (load p) (CList e n)); [|apply reads_ret]. intros Q. by apply wp_load_own. Qed.
Lemma reads_stmt h p d c a e n : h !! p = Some (CBlock (BStmt d c a e n)) → reads h (get_stmt_b p) (d, c, a, e, n).
Proof. intros E. eapply reads_bind; [by apply reads_block|apply reads_ret]. Qed.
Lemma reads_scop h p v l c pa s r e n : h !! p = Some (CBlock (BScop v l c pa s r e n)) → reads h (get_scop_b p) (v, l, c, pa, s, r, e, n).
Proof. intros E. eapply reads_bind; [by apply reads_block|apply reads_ret]. Qed.
Lemma reads_gen h p d i n : h !! p = Some (CBlock (BGen d i n)) → reads h (get_gen_b p) (d, i, n).
Proof. intros E. eapply reads_bind; [by apply reads_block|apply reads_ret]. Qed.
Lemma reads_fetch_union h a u : sees h (m_relation a u) → reads h (fetch_union a) u.
Proof. intros Su Q. by apply wp_fetch_union. Qed.
Ltac nd E := (eapply sims_reads || eapply reads_bind); [exact E|]; cbn beta iota.

(** ** Lists of relations *)
Lemma reads_count_loop h l : ∀ p fuel, sees h (m_relations p l) → (List.length l < fuel)%nat → reads h (list_count_loop fuel p) (osl_relation_list_count l).
Proof.
  induction l as [|u l IH]; intros p [|fuel] Sp Hf; try (cbn in Hf; lia); cbn [list_count_loop]; rewrite (sees_chain_null _ element_nonnull _ _ _ Sp).
  - apply reads_ret.
  - apply sees_chain_cons in Sp as (n & (e & E & _ & Su)%sees_element & Sl). nd (reads_node _ _ _ _ E). nd (IH n fuel Sl ltac:(cbn in Hf; lia)).
    rewrite (sees_relation_null _ _ _ Su).
    replace (osl_relation_list_count (u :: l)) with ((if match u with [] => true | _ => false end then 0 else 1) + osl_relation_list_count l); [apply reads_ret|].
    unfold osl_relation_list_count. cbn [List.filter]. destruct u; unfold zlength; cbn [List.length]; lia.
Qed.
Lemma reads_count h p l : sees h (m_relations p l) → reads h (osl_relation_list_count_h p) (osl_relation_list_count l).
Proof. intros Sp. apply (reads_loop h (List.length l)); [eapply own_size; [apply relations_size|done]|]. intros n Hn. by apply reads_count_loop. Qed.
Lemma sims_list_check_loop h type eo ei ep l : ∀ p fuel, sees h (m_relations p l) → (List.length l < fuel)%nat →
  sims h (osl_relation_list_integrity_check l type eo ei ep) (list_check_loop fuel p type eo ei ep).
Proof.
  induction l as [|u l IH]; intros p [|fuel] Sp Hf; try (cbn in Hf; lia); cbn [list_check_loop osl_relation_list_integrity_check]; rewrite (sees_chain_null _ element_nonnull _ _ _ Sp).
  - apply sims_ret.
  - apply sees_chain_cons in Sp as (n & (e & E & _ & Su)%sees_element & Sl). nd (reads_node _ _ _ _ E). nd (reads_fetch_union _ _ _ Su).
    apply sims_bind; [apply sims_lift|]. intros []; [apply IH; [done|cbn in Hf; lia]|apply sims_ret].
Qed.
Lemma sims_list_check h p l type eo ei ep : sees h (m_relations p l) → sims h (osl_relation_list_integrity_check l type eo ei ep) (loop (λ n, list_check_loop n p type eo ei ep)).
Proof. intros Sp. apply (sims_loop h (List.length l)); [eapply own_size; [apply relations_size|done]|]. intros n Hn. by apply sims_list_check_loop. Qed.
Lemma sims_list_attributes_loop h l : ∀ p fuel loc a, sees h (m_relations p l) → (List.length l < fuel)%nat → sims h (list_attributes l loc a) (list_attributes_loop fuel p loc a).
Proof.
  induction l as [|u l IH]; intros p [|fuel] loc a Sp Hf; try (cbn in Hf; lia); cbn [list_attributes_loop list_attributes]; rewrite (sees_chain_null _ element_nonnull _ _ _ Sp).
  - apply sims_ret.
  - apply sees_chain_cons in Sp as (n & (e & E & _ & Su)%sees_element & Sl). nd (reads_node _ _ _ _ E). nd (reads_fetch_union _ _ _ Su).
    apply sims_bind; [apply sims_lift|]. intros loc'. apply IH; [done|cbn in Hf; lia].
Qed.
Lemma sims_list_attributes h p l loc a : sees h (m_relations p l) → sims h (list_attributes l loc a) (loop (λ n, list_attributes_loop n p loc a)).
Proof. intros Sp. apply (sims_loop h (List.length l)); [eapply own_size; [apply relations_size|done]|]. intros n Hn. by apply sims_list_attributes_loop. Qed.

(** ** Statements *)
Lemma sims_statement_attributes_loop h l : ∀ p fuel loc a, sees h (m_stmts p l) → (List.length l < fuel)%nat → sims h (statement_attributes l loc a) (statement_attributes_loop fuel p loc a).
Proof.
  induction l as [|s l IH]; intros p [|fuel] loc a Sp Hf; try (cbn in Hf; lia); cbn [statement_attributes_loop statement_attributes]; rewrite (sees_chain_null _ stmt_nonnull _ _ _ Sp).
  - apply sims_ret.
  - apply sees_chain_cons in Sp as (n & (d & c & ac & e & E & _ & Sd & Sc & Sa & Se)%sees_stmt & Sl). nd (reads_stmt _ _ _ _ _ _ _ E). nd (reads_fetch_union _ _ _ Sd).
    apply sims_bind; [apply sims_lift|]. intros l1. nd (reads_fetch_union _ _ _ Sc). apply sims_bind; [apply sims_lift|]. intros l2. apply sims_bind; [by apply sims_list_attributes|]. intros l3.
    apply IH; [done|cbn in Hf; lia].
Qed.
Lemma sims_statement_attributes h p l a : sees h (m_stmts p l) → sims h (osl_statement_get_attributes l a) (osl_statement_get_attributes_h p a).
Proof. intros Sp. apply (sims_loop h (List.length l)); [eapply own_size; [apply stmts_size|done]|]. intros n Hn. by apply sims_statement_attributes_loop. Qed.
Lemma reads_number_loop h l : ∀ p fuel, sees h (m_stmts p l) → (List.length l < fuel)%nat → reads h (statement_number_loop fuel p) (zlength l).
Proof.
  induction l as [|s l IH]; intros p [|fuel] Sp Hf; try (cbn in Hf; lia); cbn [statement_number_loop]; rewrite (sees_chain_null _ stmt_nonnull _ _ _ Sp).
  - apply reads_ret.
  - apply sees_chain_cons in Sp as (n & (d & c & ac & e & E & _)%sees_stmt & Sl). nd (reads_stmt _ _ _ _ _ _ _ E). nd (IH n fuel Sl ltac:(cbn in Hf; lia)).
    replace (zlength (s :: l)) with (zlength l + 1) by (unfold zlength; cbn [List.length]; lia). apply reads_ret.
Qed.
Lemma reads_statement_number h p l : sees h (m_stmts p l) → reads h (osl_statement_number_h p) (osl_statement_number l).
Proof. intros Sp. apply (reads_loop h (List.length l)); [eapply own_size; [apply stmts_size|done]|]. intros n Hn. by apply reads_number_loop. Qed.
(** The iterators of the body *)
Definition iterators_at (h : heap obj) (b : option body) (it : ptr) : Prop :=
  match b with Some (Body (Some x) _) => isnull it = false ∧ sees h (m_strings it (Some x)) | _ => isnull it = true end.
Lemma sim_iterators h p l (Q : option body → ptr → oprop) : sees h (m_generics p l) →
  own h ∗ (∀ b it, <affine> ⌜iterators_at h b it⌝ -∗ own h -∗ Q b it) ⊢ sim (body_of l) (iterators_of p) Q.
Proof.
  intros Sp. iIntros "[H K]". unfold iterators_of, body_of. iApply sim_heap. iApply (wp_generic_lookup h p l); [done|]. iFrame "H". iIntros (q) "%D H". apply data_at_lookup in D.
  destruct (osl_generic_lookup l (uri_of KBody)) as [d|]; cbn [m_content] in D.
  - destruct d as [| x | | | | | | | | | | | | | | | |]; try (iStopProof; apply sim_UB). cbn [m_data] in D.
    apply sees_somewhere in D as ([i e] & [[Eq Hq]%sees_cell [Si Se]%sees_beside]%sees_beside). rewrite (null_ne _ Hq). iApply sim_ok. iApply wp_bind. iApply wp_bind. iApply wp_get_block_own; [exact Eq|]. iFrame "H". iIntros "H". iApply wp_ret. iApply wp_ret.
    iApply ("K" with "[%] H"). destruct x as [bi be]. cbn in Si |- *. destruct bi as [bi|].
    + split; [|done]. destruct bi as [bi|]; cbn [m_strings] in Si; [apply sees_somewhere in Si as ([? ?] & [[_ Hi]%sees_cell _]%sees_beside)|apply sees_cell in Si as [_ Hi]]; by apply null_ne.
    + by apply sees_nothing in Si as ->.
  - apply sees_nothing in D as ->. cbn [isnull NULL Z.eqb]. iApply sim_ret. by iApply ("K" with "[%] H").
Qed.
Lemma strings_count (x : option strings) : Z.of_nat (count x) = osl_strings_size x.
Proof. by destruct x as [[x|]|]. Qed.
Lemma sims_statement_check_loop h ep l : ∀ p fuel, sees h (m_stmts p l) → (List.length l < fuel)%nat → sims h (osl_statement_integrity_check l ep) (statement_check_loop fuel p ep).
Proof.
  induction l as [|s l IH]; intros p [|fuel] Sp Hf; try (cbn in Hf; lia); cbn [statement_check_loop osl_statement_integrity_check]; rewrite (sees_chain_null _ stmt_nonnull _ _ _ Sp).
  - apply sims_ret.
  - apply sees_chain_cons in Sp as (n & (d & c & ac & e & E & _ & Sd & Sc & Sa & Se)%sees_stmt & Sl). nd (reads_stmt _ _ _ _ _ _ _ E). nd (reads_fetch_union _ _ _ Sd).
    apply sims_bind; [apply sims_lift|]. intros b1. destruct (negb b1); [apply sims_ret|]. cbv zeta.
    nd (reads_fetch_union _ _ _ Sc). apply sims_bind; [apply sims_lift|]. intros b2. destruct (negb b2); [apply sims_ret|].
    apply sims_bind; [by apply sims_list_check|]. intros b3. destruct (negb b3); [apply sims_ret|].
    intros Q. iIntros "[H K]". iApply sim_bind. iApply sim_iterators; [done|]. iFrame "H". iIntros (b it) "%Hit H". iApply sim_heap.
    set (ei := first_nout (st_domain s)). set (bad := match b with Some (Body (Some it) _) => negb (ei =? UNDEFINED) && negb (ei mod 2 ^ 64 =? osl_strings_size (Some it)) | _ => false end).
    iApply (wp_wand _ (λ x, <affine> ⌜x = bad⌝ ∗ own h)%I). iSplitL "H".
    { destruct b as [[[bi|] be]|]; cbn [iterators_at] in Hit; [destruct Hit as [-> Si]|rewrite Hit; iApply wp_ret; by iFrame..].
      iApply wp_bind. iApply wp_strings_size_own; [done|]. iFrame "H". iIntros "H". iApply wp_ret. iFrame "H". iPureIntro. unfold bad. by rewrite strings_count. }
    iIntros (x) "[-> H]". destruct bad; [iApply sim_ret; by iApply "K"|]. iApply (IH n fuel); [done|cbn in Hf; lia|]. iFrame.
Qed.
Lemma sims_statement_check h p l ep : sees h (m_stmts p l) → sims h (osl_statement_integrity_check l ep) (osl_statement_integrity_check_h p ep).
Proof. intros Sp. apply (sims_loop h (List.length l)); [eapply own_size; [apply stmts_size|done]|]. intros n Hn. by apply sims_statement_check_loop. Qed.

(** ** Scops *)
Lemma sims_scop_attributes_loop h l : ∀ p fuel loc a, sees h (m_scop_list p l) → (List.length l < fuel)%nat → sims h (scop_attributes l loc a) (scop_attributes_loop fuel p loc a).
Proof.
  induction l as [|s l IH]; intros p [|fuel] loc a Sp Hf; try (cbn in Hf; lia); cbn [scop_attributes_loop scop_attributes]; rewrite (sees_chain_null _ scop_node_nonnull _ _ _ Sp).
  - apply sims_ret.
  - apply sees_chain_cons in Sp as (n & (la & c & pa & st & r & e & E & _ & Sla & Sc & Spa & Sst & Se)%sees_scop_node & Sl). nd (reads_scop _ _ _ _ _ _ _ _ _ _ E). nd (reads_fetch_union _ _ _ Sc).
    apply sims_bind; [apply sims_lift|]. intros l1. apply sims_bind; [by apply sims_statement_attributes|]. intros l2. apply IH; [done|cbn in Hf; lia].
Qed.
Lemma sims_scop_attributes h p l : sees h (m_scop_list p l) → sims h (osl_scop_get_attributes l undefined_attrs) (loop (λ n, scop_attributes_loop n p undefined_attrs undefined_attrs)).
Proof. intros Sp. apply (sims_loop h (List.length l)); [eapply own_size; [apply scops_size|done]|]. intros n Hn. by apply sims_scop_attributes_loop. Qed.
Lemma sims_scop_check_loop h l : ∀ p fuel, sees h (m_scop_list p l) → (List.length l < fuel)%nat → sims h (osl_scop_integrity_check l) (scop_check_loop fuel p).
Proof.
  induction l as [|s l IH]; intros p [|fuel] Sp Hf; try (cbn in Hf; lia); cbn [scop_check_loop osl_scop_integrity_check]; rewrite (sees_chain_null _ scop_node_nonnull _ _ _ Sp).
  - apply sims_ret.
  - apply sees_chain_cons in Sp as (n & (la & c & pa & st & r & e & E & _ & Sla & Sc & Spa & Sst & Se)%sees_scop_node & Sl). nd (reads_scop _ _ _ _ _ _ _ _ _ _ E). nd (reads_fetch_union _ _ _ Sc).
    apply sims_bind; [apply sims_lift|]. intros b1. destruct (negb b1); [apply sims_ret|]. apply sims_bind; [by apply sims_statement_check|]. intros b2. destruct (negb b2); [apply sims_ret|]. apply IH; [done|cbn in Hf; lia].
Qed.
Lemma sims_scop_check h p l : sees h (m_scop_list p l) → sims h (osl_scop_integrity_check l) (osl_scop_integrity_check_h p).
Proof. intros Sp. apply (sims_loop h (List.length l)); [eapply own_size; [apply scops_size|done]|]. intros n Hn. by apply sims_scop_check_loop. Qed.
End READ.
