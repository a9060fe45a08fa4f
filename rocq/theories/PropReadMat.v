(** * PropReadMat: reading, copying and releasing scops with every coefficient in memory (C65)

    As in C60 and C51, but the matrix of a relation is one block of rows, every coefficient is a variable of its own in it (and, with GMP, owns
    memory that has to be cleared): the readers write the numbers in the variables one by one, copies assign them one by one, and the
    releases clear them.  [reads v c h m lost]: ReadHeapSpec.v; [copies], [releases]: PayloadSpec.v; [m_scop_list]: SaveHeapSpec.v. *)
From stdpp Require Import gmap.
From iris.proofmode Require Import tactics.
From Coq Require Import ZifyBool ZifyNat.
From Verif Require PrintHeapSpec MatProofs6 SaveHeapProofs5 PropPrint RelTextProofs UtilProofs TextSpec SaveSpec SaveProofs4 ReadHeapProofs7 PropScop ScopSpec PrintSpec.
From Verif Require Import Base Spec IntModel VectorModel RelationModel RelSpec UtilModel StringsModel RelTextModel ExtModel HeapModel HeapObjects HeapSpec HeapLogic HeapProofs PayloadModel PayloadSpec PayloadProofs PayloadProofs2 PayloadProofs3 PayloadProofs4 PayloadProofs5 PayloadProofs6 PayloadProofs7 PropHeap PropHeap2 PropPayload MatModel MatSpec MatProofs MatProofs4 PropMat PropUtil ScopModel PropStrings PropClone CloneSpec FullModel FullSpec FullProofs FullProofs2 FullProofs4 FullProofs5 FullExists PropFull ReadSpec ReadProofs ReadProofs2 ReadProofs3 PropScop2 PropRead ReadHeapModel ReadHeapSpec ReadHeapProofs ReadHeapProofs2 ReadHeapProofs3 ReadHeapProofs4 ReadHeapProofs5 ReadHeapProofs6 PropReadHeap SaveHeapModel SaveHeapSpec SaveHeapProofs2 SaveHeapProofs3 PropSaveHeap2 ReadMatModel ReadMatProofs ReadMatProofs2 ReadMatProofs3.
Local Open Scope string_scope.
Local Open Scope list_scope.
Local Open Scope Z_scope.
Notation reads := ReadHeapSpec.reads.

Section P.
Context (cfg : config) (al : Allocator obj).

(** ** Relations and lists of relations *)
Theorem C65_relation : ∀ env h f s p,
  reads (osl_relation_pread f p) (osl_relation_pread_m f p) h m_relation [] ∧
  reads (osl_relation_read env f) (osl_relation_read_m env f) h m_relation [] ∧
  reads (osl_relation_psread s p) (osl_relation_psread_m s p) h m_relation [] ∧
  reads (osl_relation_psread_polylib s p) (osl_relation_psread_polylib_m s p) h m_relation [] ∧
  reads (osl_relation_list_pread f p) (osl_relation_list_pread_m f p) h m_relations [].
Proof.
  intros env h f s pr. split_and!; apply reads_clean; intros Q; iIntros "K".
  - iApply sim_relation_pread_m. iIntros (q u f') "_ P". iApply ("K" with "P").
  - iApply sim_relation_pread_m. iIntros (q u f') "_ P". iApply ("K" with "P").
  - iApply sim_psread_m. iIntros (q u f') "P". iApply ("K" with "P").
  - iApply sim_psread_polylib_m. iIntros (q u f') "P". iApply ("K" with "P").
  - iApply sim_list_pread_m. iIntros (q l f') "_ P". iApply ("K" with "P").
Qed.
(** What is read can be released: nothing is left. *)
Theorem C65_relation_read_free : ∀ h f p u f', osl_relation_pread f p = Ok (u, f') →
  runs_to (x <== osl_relation_pread_m f p ;; osl_relation_free_m (fst x) ;;== ret (snd x)) h (λ t h', t = f' ∧ h' = h).
Proof.
  intros h f p u f' E. apply (runs_intro (own h) (λ t, <affine> ⌜t = f'⌝ ∗ own h))%I; [|done|].
  - iIntros "O". pose proof (sim_relation_pread_m f p (λ xt pt, <affine> ⌜snd pt = snd xt⌝ ∗ M (m_relation (fst pt) (fst xt)))%I) as W. rewrite E in W. cbn [sim] in W.
    iApply wp_bind. iApply wp_wand. iSplitR "O". { iApply W. iIntros (q v f2) "_ R". cbn [fst snd]. by iFrame. }
    iIntros ([q t]) "[%Et R]". cbn [fst snd] in *. subst t. iApply wp_bind. iApply MatProofs6.wp_relation_free. iFrame "R". iApply wp_ret. by iFrame.
  - intros t h' (h1 & h2 & -> & Hd & [E1 E2] & E3). change (h1 = ∅) in E1. cbn in E3. subst h1 h2. by rewrite left_id_L.
Qed.

(** ** Statements and scops *)
Theorem C65_statement : ∀ env h reg R p f, config_ok cfg → supported cfg p → within h (m_ifaces reg R) →
  reads (osl_statement_pread env f R p) (osl_statement_pread_m env f reg p) h (λ q s, m_stmts q [s]) (lost_statement env R p f).
Proof.
  intros env h reg R p f Hc Hp Sr. apply reads_intro. intros Q. iIntros "[O K]". iApply sim_stmt_pread; [done|done|exact Sr|]. iFrame "O".
  iIntros (q s f') "O P L". iApply ("K" with "O [P] L"). unfold m_stmts. by iApply M_chain_one.
Qed.
(** The loop of osl_scop_pread; the integrity check that follows it only reads (C64), and warns (source/scop.c:497-498). *)
Theorem C65_scops : ∀ env h reg R p f, config_ok cfg → supported cfg p → registry_ok R → within h (m_ifaces reg R) →
  reads (scops_pread env (S (List.length (ftext f))) R p f) (osl_scop_pread_m env f reg p) h m_scop_list (lost_scop_read env R p f).
Proof.
  intros env h reg R p f Hc Hp HR HS. apply reads_intro. intros Q. etrans; [|exact (sim_scop_list env Hc _ h reg R p f Q Hp HR HS)].
  iIntros "[O K]". iFrame "O". iIntros (q s f') "O P L". iApply ("K" with "O P L").
Qed.
Lemma wp_scop_pread_m env h reg R p f l f' Q : config_ok cfg → supported cfg p → registry_ok R → sees h (m_ifaces reg R) → osl_scop_pread env f R p = Ok (l, f') →
  (own h ∗ (∀ q, own h -∗ M (m_scop_list q l) -∗ M (m_lost (lost_scop_read env R p f)) -∗ Q (q, f')))%I ⊢ wp (osl_scop_pread_m env f reg p) Q.
Proof.
  intros Hc Hp HR HS E%pread_loop. pose proof (sim_scop_list env Hc (S (List.length (ftext f))) h reg R p f (λ xt pt, <affine> ⌜xt = (l, f')⌝ -∗ Q pt)%I Hp HR HS) as W.
  rewrite E in W. iIntros "[O K]". iApply (wp_wand _ (λ pt, <affine> ⌜(l, f') = (l, f')⌝ -∗ Q pt)%I). iSplitR "".
  - iApply W. iFrame "O". iIntros (q l2 f2) "O P L". iIntros ([= -> ->]). iApply ("K" with "O P L").
  - iIntros (a) "H". by iApply "H".
Qed.
Theorem C65_scop : ∀ env h reg R p f l f', config_ok cfg → supported cfg p → registry_ok R → within h (m_ifaces reg R) →
  osl_scop_pread env f R p = Ok (l, f') →
  runs_to (osl_scop_pread_m env f reg p) h (λ x h', snd x = f' ∧ (exactly h ⋆ m_scop_list (fst x) l ⋆ m_lost (lost_scop_read env R p f)) h').
Proof.
  intros env h reg R p f l f' Hc Hp HR HS E%pread_loop. pose proof (C65_scops env h reg R p f Hc Hp HR HS) as W. unfold ReadHeapSpec.reads in W. rewrite E in W. exact W.
Qed.
(** osl_scop_read makes the default registry and releases it. *)
Lemma wp_scop_read_m env f l f' Q : config_ok cfg → osl_scop_read env f = Ok (l, f') →
  (∀ p, M (m_scop_list p l) -∗ M (m_lost (lost_scop_read env default_registry (osl_util_get_precision env) f)) -∗ Q (p, f'))%I ⊢ wp (osl_scop_read_m env f) Q.
Proof.
  intros Hc E. iIntros "K". unfold osl_scop_read_m. iApply wp_bind. iApply wp_default_registry. iIntros (q) "R".
  rewrite (M_own (m_ifaces q default_registry)). iDestruct "R" as (hr) "[%Hr R]".
  iApply wp_bind. iApply (wp_scop_pread_m env hr q default_registry _ f l f'); [done|apply C38_precision_supported|apply default_ok|by apply sees_self|done|].
  iFrame "R". iIntros (p) "R P L". iApply wp_bind. iApply (wp_interface_free q default_registry). iPoseProof (M_back _ _ Hr with "R") as "R". iFrame "R".
  iApply wp_ret. iApply ("K" with "P L").
Qed.
Theorem C65_scop_read : ∀ env h f l f', config_ok cfg → osl_scop_read env f = Ok (l, f') →
  runs_to (osl_scop_read_m env f) h
    (λ x h', snd x = f' ∧ (exactly h ⋆ m_scop_list (fst x) l ⋆ m_lost (lost_scop_read env default_registry (osl_util_get_precision env) f)) h').
Proof.
  intros env h f l f' Hc E. set (lost := lost_scop_read _ _ _ _).
  apply (runs_intro (own h) (λ x, <affine> ⌜snd x = f'⌝ ∗ own h ∗ M (m_scop_list (fst x) l) ∗ M (m_lost lost)))%I; [|done|].
  - iIntros "O". iApply (wp_scop_read_m env f l f'); [done|done|]. iIntros (p) "P L". cbn [fst snd]. iFrame. done.
  - intros [p t'] h' (h1 & h2 & -> & Hd & [E1 E2] & h3 & h4 & -> & Hd2 & E3 & h5 & h6 & -> & Hd3 & E4 & E5).
    change (h1 = ∅) in E1. cbn in E3. subst h1 h3. rewrite left_id_L. split; [exact E2|]. exists h, (h5 ∪ h6). split_and!; [done|done|done|].
    exists h5, h6. split_and!; [done|done|exact E4|exact E5].
Qed.

(** ** Reading, printing and releasing a file leaves the memory as it was, but for the names of the closing tags the readers met. *)
Lemma read_scops_typed env f l f' : config_ok cfg → osl_scop_read env f = Ok (l, f') → Forall typed_scop l.
Proof.
  intros Hc E. destruct (C58_scop_read cfg env f Hc) as [_ C]. destruct (C _ _ E) as [_ F]. revert F. apply Forall_impl. intros s. apply scop_read_typed, C38_precision_supported.
Qed.
Theorem C65_read_free : ∀ env h f l f', config_ok cfg → osl_scop_read env f = Ok (l, f') →
  runs_to (x <== osl_scop_read_m env f ;; osl_scop_free_m (fst x)) h
    (λ _, exactly h ⋆ m_lost (lost_scop_read env default_registry (osl_util_get_precision env) f)).
Proof.
  intros env h f l f' Hc E. set (lost := lost_scop_read _ _ _ _). pose proof (read_scops_typed env f l f' Hc E) as T.
  apply (runs_intro (own h) (λ _, own h ∗ M (m_lost lost)))%I; [|done|].
  - iIntros "O". iApply wp_bind. iApply (wp_scop_read_m env f l f'); [done|done|]. iIntros (p) "P L". cbn [fst]. iApply (wp_scops_free p l _ T). iFrame.
  - intros _ h' (h1 & h2 & -> & Hd & E1 & E2). exists h1, h2. split_and!; [done|done|exact E1|exact E2].
Qed.
Theorem C65_read_print_free : ∀ env h f l f' text, config_ok cfg → osl_scop_read env f = Ok (l, f') → Forall scop_in_order l → osl_scop_print l = Ok text →
  runs_to (x <== osl_scop_read_m env f ;; t <== osl_scop_print_h (fst x) ;; osl_scop_free_m (fst x) ;;== ret t) h
    (λ t h', t = text ∧ (exactly h ⋆ m_lost (lost_scop_read env default_registry (osl_util_get_precision env) f)) h').
Proof.
  intros env h f l f' text Hc E Hl Et. set (lost := lost_scop_read _ _ _ _). pose proof (read_scops_typed env f l f' Hc E) as T.
  apply (runs_intro (own h) (λ t, <affine> ⌜t = text⌝ ∗ own h ∗ M (m_lost lost)))%I; [|done|].
  - iIntros "O". iApply wp_bind. iApply (wp_scop_read_m env f l f'); [done|done|]. iIntros (p) "P L". cbn [fst].
    rewrite (M_own (m_scop_list p l)). iDestruct "P" as (hp) "[%Hp P]". pose proof (SaveHeapProofs5.sims_scop_print hp p l (sees_self _ _ Hp) Hl (λ x y, <affine> ⌜y = x⌝ ∗ own hp)%I) as W. rewrite Et in W. cbn [sim] in W.
    iApply wp_bind. iApply wp_wand. iSplitL "P". { iApply W. iFrame "P". iIntros (t) "P". by iFrame. }
    iIntros (t) "[-> P]". iPoseProof (M_back _ _ Hp with "P") as "P". iApply wp_bind. iApply (wp_scops_free p l _ T). iFrame "P". iApply wp_ret. by iFrame.
  - intros t h' (h1 & h2 & -> & Hd & [E1 E2] & h3 & h4 & -> & Hd2 & E3 & E4). change (h1 = ∅) in E1. subst h1. rewrite left_id_L. split; [exact E2|]. exists h3, h4. split_and!; [done|done|exact E3|exact E4].
Qed.
(** What the library prints it reads without losing anything. *)
Theorem C65_printed : ∀ env p h l text, config_ok cfg → supported cfg p → osl_util_get_precision env = p →
  List.Forall (SaveSpec.scop_ok cfg p default_registry) l → osl_scop_print l = Ok text → TextSpec.short_lines text →
  runs_to (osl_scop_read_m env (File text false)) h
    (λ x h', snd x = File [] true ∧ (exactly h ⋆ m_scop_list (fst x) (List.map SaveSpec.reread_scop l)) h') ∧
  runs_to (x <== osl_scop_read_m env (File text false) ;; osl_scop_free_m (fst x)) h (λ _ h', h' = h).
Proof.
  intros env p h l text Hc Hs Hp Hl E Ht.
  assert (osl_scop_read env (File text false) = Ok (List.map SaveSpec.reread_scop l, File [] true)) as R.
  { unfold osl_scop_read. rewrite Hp. apply (C35_scop_roundtrip cfg env p default_registry l text); done. }
  pose proof (ReadHeapProofs7.printed_clean cfg env p Hc Hs Hp default_registry l text Hl E Ht) as N.
  split.
  - intros hf Hd. destruct (C65_scop_read env h _ _ _ Hc R hf Hd) as (a & h' & E1 & Hd' & Es & h1 & h2 & -> & D & E2 & h3 & h4 & -> & D2 & E3 & E4).
    exists a, (h1 ∪ (h3 ∪ h4)). split_and!; [done|done|done|]. rewrite Hp N in E4. cbn in E4. destruct E4 as [-> _].
    exists h1, h3. rewrite right_id_L in D |- *. done.
  - intros hf Hd. destruct (C65_read_free env h _ _ _ Hc R hf Hd) as (a & h' & E1 & Hd' & h1 & h2 & -> & D & E2 & E4).
    exists a, (h1 ∪ h2). split_and!; [done|done|]. rewrite Hp N in E4. cbn in E4, E2. destruct E4 as [-> _]. rewrite right_id_L. done.
Qed.
(** Saving the scops of the memory and reading the text makes a second copy of them beside the first. *)
Theorem C65_save_read : ∀ env p m l h a, config_ok cfg → supported cfg p → osl_util_get_precision env = p → 16 ≤ m →
  Forall (SaveSpec.scop_ok cfg p default_registry) l → Forall ScopSpec.c_sizes l → Forall ScopSpec.coherent_scop l → Forall (PrintSpec.scop_fits m) l →
  within h (m_scop_list a l) →
  runs_to (t <== osl_scop_print_h a ;; osl_scop_read_m env (File t false)) h
    (λ x h', snd x = File [] true ∧ (exactly h ⋆ m_scop_list (fst x) (List.map SaveSpec.reread_scop l)) h') ∧
  runs_to (t <== osl_scop_print_h a ;; x <== osl_scop_read_m env (File t false) ;; osl_scop_free_m (fst x)) h (λ _ h', h' = h).
Proof.
  intros env p m l h a Hc Hp He Hm Hok Hsz Hco Hf Sa. destruct (PropPrint.C53_prints cfg p m l Hc Hp Hm Hok Hsz Hco Hf) as (text & E & Hs).
  destruct (C64_saves cfg al p m l h a Hc Hp Hm Hok Hsz Hco Hf Sa) as (text' & E' & Hr). rewrite E in E'. injection E' as <-.
  destruct (C65_printed env p h l text Hc Hp He Hok E Hs) as [R1 R2].
  split; intros hf Hd; destruct (Hr hf Hd) as (w & h' & E1 & Hd' & h1 & h2 & -> & D & H1 & H2); destruct H2 as [H2 H3]; change (h1 = h) in H1; subst h1 h2 w; rewrite right_id_L in E1, Hd'.
  - destruct (R1 hf Hd) as (x & h2 & E2 & D2 & H2). exists x, h2. split_and!; [|done|exact (proj1 H2)|exact (proj2 H2)]. unfold pbind. rewrite E1. exact E2.
  - destruct (R2 hf Hd) as (x & h2 & E2 & D2 & H2). exists x, h2. split_and!; [|done|exact H2]. unfold pbind at 1. rewrite E1. exact E2.
Qed.

(** ** Copies *)
Theorem C65_scop_clone : ∀ l, config_ok cfg → Forall (clonable_scop cfg) l → copies osl_scop_clone_m m_scop_list l l.
Proof. intros l Hc Hl. apply copies_intro. intros h p Q H. by apply (wp_scops_clone Hc). Qed.
Theorem C65_statement_nclone : ∀ l n, config_ok cfg → Forall (clonable_statement cfg) l → -1 ≤ n →
  copies (λ p, osl_statement_nclone_m p n) m_stmts l (first_elements n l).
Proof. intros l n Hc Hl Hn. apply copies_intro. intros h p Q H. rewrite -first_of; [|done]. by apply (wp_stmts_nclone Hc). Qed.
Theorem C65_statement_clone : ∀ l, config_ok cfg → Forall (clonable_statement cfg) l → copies osl_statement_clone_m m_stmts l l.
Proof. intros l Hc Hl. apply copies_intro. intros h p Q H. by apply (wp_stmts_clone Hc). Qed.
Theorem C65_list_clone : ∀ l, config_ok cfg → Forall (Forall (wf_rel cfg)) l → copies osl_relation_list_clone_m m_relations l l.
Proof. intros l Hc Hl. apply copies_intro. intros h p Q H. by apply (wp_relations_same Hc). Qed.
Theorem C65_list_node : ∀ u h p, config_ok cfg → Forall (wf_rel cfg) u → m_relation p u h →
  runs_to (osl_relation_list_node_m p) h (λ q, exactly h ⋆ m_relations q (match u with [] => [] | _ => [u] end)).
Proof.
  intros u h p Hc Hu Hp. apply (runs_intro (own h) (λ q, own h ∗ M (m_relations q (match u with [] => [] | _ => [u] end)))%I); [|done|].
  - iIntros "O". iApply (wp_list_node_m h p u u); [by apply sees_self|by apply (clone_union Hc)|]. iFrame "O". iIntros (q) "O L". iFrame.
  - intros q h' (h1 & h2 & -> & Hd & E1 & E2). by exists h1, h2.
Qed.
(** The elements of a type, copied: the list given stays as it was. *)
Theorem C65_list_filter : ∀ l t, config_ok cfg → Forall (Forall (wf_rel cfg)) l →
  copies (λ p, osl_relation_list_filter_m p t) m_relations l (osl_relation_list_filter l t).
Proof. intros l t Hc Hl. apply copies_intro. intros h p Q H. apply (wp_relations_filter h p l l t Q H). by apply clone_list_same. Qed.

(** ** Releases *)
Theorem C65_scop_free : ∀ l, Forall typed_scop l → releases osl_scop_free_m m_scop_list l.
Proof. intros l Hl. apply releases_intro. intros p Q. by apply wp_scops_free. Qed.
Theorem C65_statement_free : ∀ l, Forall (λ s, typed_generics (st_ext s)) l → releases osl_statement_free_m m_stmts l.
Proof. intros l Hl. apply releases_intro. intros p Q. by apply wp_stmts_free. Qed.
Theorem C65_list_free : ∀ l, releases osl_relation_list_free_m m_relations l.
Proof. intros l. apply releases_intro. intros p Q. by apply wp_relations_free. Qed.
Theorem C65_clone_free : ∀ l h p, config_ok cfg → Forall (clonable_scop cfg) l → m_scop_list p l h →
  runs_to (q <== osl_scop_clone_m p ;; osl_scop_free_m p ;;== ret q) h (λ q h', m_scop_list q l h') ∧
  runs_to (q <== osl_scop_clone_m p ;; osl_scop_free_m q) h (λ _ h', h' = h) ∧
  runs_to (q <== osl_scop_clone_m p ;; osl_scop_free_m p ;;== osl_scop_free_m q) h (λ _ h', h' = ∅).
Proof.
  intros l h p Hc Hl H. assert (Forall typed_scop l) as Ht by (revert Hl; apply Forall_impl; apply scop_typed).
  by apply (C50_clone_then_free _ osl_scop_clone_m osl_scop_free_m m_scop_list l l); [by apply C65_scop_clone|by apply C65_scop_free|by apply C65_scop_free|].
Qed.

(** ** Adding: the nodes given are taken over *)
Theorem C65_scop_add : ∀ l1 l2 h1 h2 p1 p2, m_scop_list p1 l1 h1 → m_scop_list p2 l2 h2 → h1 ##ₘ h2 →
  runs_to (osl_scop_add_f p1 p2) (h1 ∪ h2) (λ q h', m_scop_list q (l1 ++ l2) h').
Proof.
  intros *. apply add_intro. intros Q. iIntros "(P & C & K)". unfold osl_scop_add_f, m_scop_list. iDestruct (chain_null _ scop_node_nonnull with "P") as "[%Ep P]". rewrite Ep. destruct l1 as [|y l1].
  - iApply wp_ret. iApply "K". rewrite M_chain_nil. by iDestruct "P" as "_".
  - iApply wp_bind. iApply (wp_link_loop m_scop_node scop_node_nonnull scop_link_loop set_scop_next_b); [|apply wp_set_scops_next|apply scop_node_size|].
    { intros f q z n q' Q'. iIntros "[A K]". iEval (unfold m_scop_node) in "A". iEval (rewrite M_somewhere) in "A". iDestruct "A" as (w) "A". destruct w as [[[[[lg c'] pa] st] r] e].
      iDestruct "A" as "(P & A)". cbn [scop_link_loop]. rewrite M_cell. get "P".
      iApply "K". iExists (lg, c', pa, st, r, e). iSplitL "P"; done. }
    iFrame "P C". iIntros "P". iApply wp_ret. by iApply "K".
Qed.
Theorem C65_statement_add : ∀ l1 l2 h1 h2 p1 p2, m_stmts p1 l1 h1 → m_stmts p2 l2 h2 → h1 ##ₘ h2 →
  runs_to (osl_statement_add_f p1 p2) (h1 ∪ h2) (λ q h', m_stmts q (l1 ++ l2) h').
Proof.
  intros *. apply add_intro. intros Q. iIntros "(P & C & K)". unfold osl_statement_add_f, m_stmts. iDestruct (chain_null _ stmt_nonnull with "P") as "[%Ep P]". rewrite Ep. destruct l1 as [|y l1].
  - iApply wp_ret. iApply "K". rewrite M_chain_nil. by iDestruct "P" as "_".
  - iApply wp_bind. iApply (wp_link_loop m_stmt stmt_nonnull stmt_link_loop set_stmt_next_b); [|apply wp_set_stmts_next|apply stmt_size|].
    { intros f q z n q' Q'. iIntros "[A K]". iEval (unfold m_stmt) in "A". iEval (rewrite M_somewhere) in "A". iDestruct "A" as (w) "A". destruct w as [[[d c] a] e].
      iDestruct "A" as "(P & A)". cbn [stmt_link_loop]. rewrite M_cell. get "P".
      iApply "K". iExists (d, c, a, e). iSplitL "P"; done. }
    iFrame "P C". iIntros "P". iApply wp_ret. by iApply "K".
Qed.
End P.
(** The assumptions of all of them at once. *)
Definition C65_theorems :=
  (@C65_relation, @C65_relation_read_free, @C65_statement, @C65_scops, @C65_scop, @C65_scop_read, @C65_read_free, @C65_read_print_free, @C65_printed, @C65_save_read,
   @C65_scop_clone, @C65_statement_nclone, @C65_statement_clone, @C65_list_clone, @C65_list_node, @C65_list_filter, @C65_scop_free, @C65_statement_free, @C65_list_free, @C65_clone_free, @C65_scop_add, @C65_statement_add).
Print Assumptions C65_theorems.

(** Being in order can be computed. *)
Definition dims_inb (r : relation) : bool :=
  (0 <=? nout r) && (0 <=? nin r) && (0 <=? nloc r) && (0 <=? npar r) && (if osl_relation_is_access r then 1 <=? nout r else true).
Definition stmt_inb (s : statement) : bool := forallb dims_inb (st_domain s) && forallb dims_inb (st_scattering s) && forallb (forallb dims_inb) (st_access s).
Definition scop_inb (s : scop) : bool := forallb dims_inb (sc_context s) && forallb stmt_inb (sc_stmts s).
Lemma dims_in r : dims_inb r = true → PrintHeapSpec.dims_in_order r.
Proof. unfold dims_inb, PrintHeapSpec.dims_in_order. intros H. destruct (osl_relation_is_access r); lia. Qed.
Lemma all_in {A} (f : A → bool) (P : A → Prop) l : (∀ x, f x = true → P x) → forallb f l = true → Forall P l.
Proof. intros H E. apply List.Forall_forall. intros x I. apply H. by eapply forallb_forall in E. Qed.
Lemma scop_in s : scop_inb s = true → scop_in_order s.
Proof.
  unfold scop_inb. intros [H1 H2]%andb_prop. split; [by apply (all_in dims_inb _ _ dims_in)|]. revert H2. apply all_in. intros t. unfold stmt_inb. intros [[T1 T2]%andb_prop T3]%andb_prop.
  split_and!; [by apply (all_in dims_inb _ _ dims_in)|by apply (all_in dims_inb _ _ dims_in)|]. revert T3. apply all_in. intros u. by apply (all_in dims_inb _ _ dims_in).
Qed.
(** The hypotheses hold: a file with two scops with extensions, in which nothing is lost; scops that can be cloned are in memory. *)
Example C65_witness : registry_ok default_registry ∧ lost_scop_read (cfg := lp64_debug) (Some (lit "64")) default_registry 64 (File wr_text false) = [] ∧
  (∃ l f text, @osl_scop_read lp64_debug (Some (lit "64")) (File wr_text false) = Ok (l, f) ∧ List.length l = 2%nat ∧ Forall scop_in_order l ∧ @osl_scop_print lp64_debug l = Ok text).
Proof.
  destruct C60_witness as (W1 & W2 & _). split; [exact W1|]. split; [exact W2|]. eexists _, _, _. split; [exact (proj1 C35_witness)|]. split; [reflexivity|]. split; [|vm_compute; reflexivity].
  apply (all_in scop_inb _ _ scop_in). vm_compute. reflexivity.
Qed.
Example C65_printed_witness : ∀ h,
  runs_to (x <== osl_scop_read_m (cfg := lp64_debug) (al := bump_allocator obj) (Some (lit "64")) (File wr_text false) ;; osl_scop_free_m (cfg := lp64_debug) (fst x)) h (λ _ h', h' = h).
Proof.
  intros h. destruct C35_witness as (_ & W1 & W2 & W3). destruct C35_prints as [W4 W5].
  apply (C65_printed lp64_debug (bump_allocator obj) (Some (lit "64")) 64 h [wr_scop; PropScop.ex_scop] wr_text W3 W2 W1 (proj1 C35_scop_ok) W4 W5).
Qed.
Example C65_clone_witness : ∃ h p, @m_scop_list lp64_debug p [sample_scop; sample_scop] h ∧ Forall typed_scop [sample_scop; sample_scop].
Proof.
  destruct C44_witness as [H _]. assert (Forall (clonable_scop lp64_debug) [sample_scop; sample_scop]) as Hl by (apply Forall_cons; [exact H|]; apply Forall_cons; [exact H|]; apply Forall_nil).
  destruct (C64_values_exist lp64_debug _ ∅ Hl) as (h & p & _ & Hp). exists h, p. split; [exact Hp|]. revert Hl. apply Forall_impl. apply scop_typed.
Qed.
(** On concrete memory: a file with two scops is read, copied and printed, everything is released, and the memory is empty again. *)
Definition read_clone_print_free (text : str) : oprog str :=
  x <== osl_scop_read_m (cfg := lp64_debug) (al := bump_allocator obj) (Some (lit "64")) (File text false) ;;
  q <== osl_scop_clone_m (cfg := lp64_debug) (al := bump_allocator obj) (fst x) ;;
  osl_scop_free_m (cfg := lp64_debug) (fst x) ;;==
  t <== osl_scop_print_h (cfg := lp64_debug) (al := bump_allocator obj) q ;;
  osl_scop_free_m (cfg := lp64_debug) q ;;== ret t.
Example C65_run : match read_clone_print_free wr_text ∅ with
  | Ok (t, h) => map_to_list h = [] ∧ Ok t = @osl_scop_print lp64_debug (List.map SaveSpec.reread_scop [wr_scop; PropScop.ex_scop])
  | _ => False end.
Proof. vm_compute. split; reflexivity. Qed.
