(** * PropReadHeap: what reading a text allocates (C60)

    [reads v c h m lost] (ReadHeapSpec.v): when the value-level reader gives a value, the program that allocates as the C code does
    gives a pointer to memory of its own that holds this value, every temporary has been released but the strings [lost], and the
    memory [h] it started from is as it was; when the value-level reader gives an error, the program stops.  All this whatever else
    is allocated and whatever addresses malloc picks. *)
From stdpp Require Import gmap.
From iris.proofmode Require Import tactics.
From Coq Require Import ZifyBool ZifyNat.
From Verif Require RelTextProofs UtilProofs.
From Verif Require Import Base Spec IntModel VectorModel RelationModel RelSpec UtilModel StringsModel RelTextModel ExtModel HeapModel HeapObjects HeapSpec HeapLogic HeapProofs PayloadModel PayloadSpec PayloadProofs PayloadProofs2 PayloadProofs3 PayloadProofs4 PayloadProofs5 PayloadProofs6 PayloadProofs7 PropHeap PropHeap2 MatSpec MatProofs MatProofs4 PropMat PropUtil ScopModel PropStrings CloneSpec FullModel FullSpec FullProofs FullProofs2 FullProofs4 FullProofs5 FullExists PropFull ReadSpec ReadProofs ReadProofs2 ReadProofs3 PropScop2 PropRead ReadHeapModel ReadHeapSpec ReadHeapProofs ReadHeapProofs2 ReadHeapProofs3 ReadHeapProofs4 ReadHeapProofs5 ReadHeapProofs6.
From Verif Require TextSpec SaveSpec SaveProofs4 ReadHeapProofs7 PropScop.
Local Open Scope string_scope.
Local Open Scope list_scope.
Local Open Scope Z_scope.

Section P.
Context (cfg : config) (al : Allocator obj).

Lemma reads_intro {X T} (v : res (X * T)) c h (m : ptr → X → mem) lost :
  (∀ Q : X * T → ptr * T → oprop, (own h ∗ (∀ p x t, own h -∗ M (m p x) -∗ M (m_lost lost) -∗ Q (x, t) (p, t)))%I ⊢ sim v c Q) → reads v c h m lost.
Proof.
  intros H. apply (agrees_intro (own h) (λ xt pt, <affine> ⌜snd pt = snd xt⌝ ∗ own h ∗ M (m (fst pt) (fst xt)) ∗ M (m_lost lost)))%I; [|done|].
  - iIntros "O". iApply H. iFrame "O". iIntros (p x t) "O P L". cbn [fst snd]. iFrame. done.
  - intros [x t] [p t'] h' (h1 & h2 & -> & Hd & [E1 E] & h3 & h4 & -> & Hd2 & E2 & h5 & h6 & -> & Hd3 & E3 & E4).
    change (h1 = ∅) in E1. cbn in E2. subst h1 h3. rewrite left_id_L. split; [exact E|]. exists h, (h5 ∪ h6). split_and!; [done|done|done|].
    exists h5, h6. split_and!; [done|done|exact E3|exact E4].
Qed.
Lemma reads_clean {X T} (v : res (X * T)) c h (m : ptr → X → mem) :
  (∀ Q : X * T → ptr * T → oprop, (∀ p x t, M (m p x) -∗ Q (x, t) (p, t))%I ⊢ sim v c Q) → reads v c h m [].
Proof.
  intros H. apply reads_intro. intros Q. iIntros "[O K]". iApply H. iIntros (p x t) "P". iApply ("K" with "O P"). by iApply m_lost_nil.
Qed.

(** ** Words, lines, the content up to a tag; lists of strings *)
Theorem C60_strings : ∀ h s f name,
  reads (osl_util_read_string_s s) (osl_util_read_string_h s) h (λ p t, m_str p (Some t)) [] ∧
  reads (osl_util_read_line_s s) (osl_util_read_line_h s) h (λ p t, m_str p (Some t)) [] ∧
  reads (osl_util_read_tag_s s) (osl_util_read_tag_h s) h m_str [] ∧
  reads (osl_util_read_tag_f f) (osl_util_read_tag_fh f) h m_str [] ∧
  reads (Ok (osl_util_read_uptoflag_s s name)) (osl_util_read_uptoflag_h s name) h m_str [] ∧
  reads (osl_util_read_uptoflag_f f name) (osl_util_read_uptoflag_fh f name) h m_str [] ∧
  reads (osl_strings_sread s) (osl_strings_sread_h s) h m_strings [] ∧
  reads (osl_strings_read f) (osl_strings_read_h f) h m_strings [].
Proof.
  intros h s f name. split_and!; apply reads_clean; intros Q; iIntros "K".
  - iApply sim_read_string. iIntros (p t s') "P". iApply "K". cbn [m_str]. by rewrite M_cell.
  - iApply sim_read_line. iIntros (p t s') "P". iApply "K". cbn [m_str]. by rewrite M_cell.
  - iApply sim_read_tag. iIntros (p t s') "_ P". iApply ("K" with "P").
  - iApply sim_read_tag_f. iIntros (p t s') "_ P". iApply ("K" with "P").
  - cbn [sim]. iApply wp_read_upto. iIntros (p) "P". destruct (osl_util_read_uptoflag_s s name) as [t s']. iApply ("K" with "P").
  - iApply sim_read_upto_f. iIntros (p t s') "_ P". iApply ("K" with "P").
  - by iApply sim_strings_sread.
  - by iApply sim_strings_read.
Qed.

(** ** The content of the extensions *)
Theorem C60_data : ∀ h s,
  reads (osl_body_sread s) (osl_body_sread_h s) h (λ p b, m_body p (Some b)) [] ∧
  reads (osl_extbody_sread s) (osl_extbody_sread_h s) h m_extbody [] ∧
  reads (osl_arrays_sread s) (osl_arrays_sread_h s) h m_arrays [] ∧
  reads (osl_comment_sread s) (osl_comment_sread_h s) h m_comment [] ∧
  reads (osl_clay_sread s) (osl_clay_sread_h s) h m_comment [] ∧
  reads (osl_textual_sread s) (osl_textual_sread_h s) h m_comment [] ∧
  reads (osl_null_sread s) (osl_null_sread_h s) h (λ p _, m_null p) [] ∧
  reads (osl_scatnames_sread s) (osl_scatnames_sread_h s) h m_scatnames_read [] ∧
  reads (osl_coordinates_sread s) (osl_coordinates_sread_h s) h m_coordinates [] ∧
  reads (osl_scatinfos_sread s) (osl_scatinfos_sread_h s) h m_scatinfos [] ∧
  reads (osl_annotation_sread s) (osl_annotation_sread_h s) h m_annotation [] ∧
  reads (osl_region_sread s) (osl_region_sread_h s) h m_regions [] ∧
  reads (osl_loop_sread s) (osl_loop_sread_h s) h m_loops [] ∧
  reads (osl_pluto_unroll_sread s) (osl_pluto_unroll_sread_h s) h m_unrolls [] ∧
  (∀ p, reads (osl_dependence_psread s p) (osl_dependence_psread_h s p) h m_dependences []).
Proof.
  intros h s. split_and!; [..|intros pr]; apply reads_clean; intros Q; iIntros "K".
  - by iApply sim_body_sread.
  - by iApply sim_extbody_sread.
  - by iApply sim_arrays_sread.
  - by iApply sim_comment_sread.
  - by iApply sim_clay_sread.
  - by iApply sim_textual_sread.
  - iApply sim_null_sread. iIntros (p s') "P". iApply ("K" with "P").
  - iApply sim_scatnames_sread. iIntros (p x s') "P". iApply "K". destruct x; cbn [m_scatnames_read]; [done|]. by rewrite M_nothing.
  - by iApply sim_coordinates_sread.
  - by iApply sim_scatinfos_sread.
  - by iApply sim_annotation_sread.
  - by iApply sim_region_sread.
  - by iApply sim_loop_sread.
  - by iApply sim_unroll_sread.
  - by iApply sim_dependence_psread.
Qed.

(** ** Relations and lists of relations *)
Theorem C60_relation : ∀ h f s p,
  reads (osl_relation_pread f p) (osl_relation_pread_h f p) h m_union [] ∧
  reads (osl_relation_psread s p) (osl_relation_psread_h s p) h m_union [] ∧
  reads (osl_relation_psread_polylib s p) (osl_relation_psread_polylib_h s p) h m_union [] ∧
  reads (osl_relation_list_pread f p) (osl_relation_list_pread_h f p) h m_list [].
Proof.
  intros h f s pr. split_and!; apply reads_clean; intros Q; iIntros "K".
  - iApply sim_relation_pread. iIntros (q u f') "_ P". iApply "K". by iApply M_union.
  - iApply sim_psread. iIntros (q u f') "_ P". iApply "K". by iApply M_union.
  - iApply sim_psread_polylib. iIntros (q u f') "P". iApply "K". by iApply M_union.
  - iApply sim_list_pread. iIntros (q l f') "_ P". iApply "K". by iApply M_list.
Qed.

(** ** Registries *)
Theorem C60_registry : ∀ h, runs_to osl_interface_get_default_registry_h h (λ p, exactly h ⋆ m_ifaces p default_registry).
Proof.
  intros h. apply (runs_intro (own h) (λ p, own h ∗ M (m_ifaces p default_registry))%I); [|done|].
  - iIntros "O". iApply wp_default_registry. iIntros (q) "P". iFrame.
  - intros p h' (h1 & h2 & -> & Hd & E1 & E2). exists h1, h2. split_and!; [done|done|exact E1|exact E2].
Qed.
Theorem C60_registry_free : ∀ h, runs_to (p <== osl_interface_get_default_registry_h ;; osl_interface_free_f p) h (λ _ h', h' = h).
Proof.
  intros h. apply (runs_intro (own h) (λ _, own h)); [|done|by intros].
  iIntros "O". iApply wp_bind. iApply wp_default_registry. iIntros (q) "P". iApply wp_interface_free. iFrame.
Qed.

(** ** Extensions: the registry is in memory, and is only read *)
Theorem C60_generic : ∀ env h reg R s f, within h (m_ifaces reg R) →
  reads (osl_generic_sread_one env R s) (osl_generic_sread_one_h env reg s) h m_one (lost_generic env R s) ∧
  reads (osl_generic_read_one env f R) (osl_generic_read_one_h env f reg) h m_one (lost_file_one env R f) ∧
  agrees (osl_generic_sread env s R) (osl_generic_sread_h env s reg) h (λ x q, exactly h ⋆ m_generics q (fst x) ⋆ m_lost (lost_generics env R s)) ∧
  reads (osl_generic_read env f R) (osl_generic_read_h env f reg) h m_generics (lost_file env R f).
Proof.
  intros env h reg R s f S. split_and!; [apply reads_intro; intros Q; iIntros "[O K]"..| |apply reads_intro; intros Q; iIntros "[O K]"].
  - iApply (one_spec_generic env R h reg s); [exact S|]. iFrame "O". iIntros (p g s') "O P L". iApply ("K" with "O P L").
  - iApply sim_read_one; [exact S|]. iFrame "O". iIntros (p g s') "O P L". iApply ("K" with "O P L").
  - apply (agrees_intro (own h) (λ x q, own h ∗ M (m_generics q (fst x)) ∗ M (m_lost (lost_generics env R s))))%I; [|done|].
    + iIntros "O". iApply sim_generic_sread; [exact S|]. iFrame "O". iIntros (q l s') "O P L". cbn [fst]. iFrame.
    + intros x q h' (h1 & h2 & -> & Hd & E2 & h3 & h4 & -> & Hd2 & E3 & E4). exists h1, (h3 ∪ h4). split_and!; [done|done|exact E2|].
      exists h3, h4. split_and!; [done|done|exact E3|exact E4].
  - iApply sim_generic_read; [exact S|]. iFrame "O". iIntros (p g s') "O P L". iApply ("K" with "O P L").
Qed.
Theorem C60_symbols : ∀ env h s,
  reads (osl_symbols_sread env s) (osl_symbols_sread_h env s) h m_symbols (lost_symbols (osl_generic_sread_one env default_registry) (lost_generic env default_registry) s).
Proof.
  intros env h s. apply reads_intro. intros Q. iIntros "[O K]". iApply (sim_symbols_sread _ (lost_generic env default_registry)); [apply one_spec_generic|].
  iIntros (p l s') "P L". iApply ("K" with "O P L").
Qed.

(** ** Statements and scops *)
Theorem C60_statement : ∀ env h reg R p f, config_ok cfg → supported cfg p → within h (m_ifaces reg R) →
  reads (osl_statement_pread env f R p) (osl_statement_pread_h env f reg p) h (λ q s, m_statements q [s]) (lost_statement env R p f).
Proof.
  intros env h reg R p f Hc Hp S. apply reads_intro. intros Q. iIntros "[O K]". iApply sim_statement_pread; [done|done|exact S|]. iFrame "O".
  iIntros (q s f') "O P L". iApply ("K" with "O [P] L"). unfold m_statements. by iApply M_chain_one.
Qed.

(** The loop of osl_scop_pread; the integrity check that follows it only reads, and warns (source/scop.c:497-498). *)
Theorem C60_scops : ∀ env h reg R p f, config_ok cfg → supported cfg p → registry_ok R → within h (m_ifaces reg R) →
  reads (scops_pread env (S (List.length (ftext f))) R p f) (osl_scop_pread_h env f reg p) h m_scops (lost_scop_read env R p f).
Proof.
  intros env h reg R p f Hc Hp HR HS. apply reads_intro. intros Q. etrans; [|exact (sim_scops env Hc _ h reg R p f Q Hp HR HS)].
  iIntros "[O K]". iFrame "O". iIntros (q s f') "O P L". iApply ("K" with "O P L").
Qed.
Lemma pread_loop env f R p l f' : osl_scop_pread env f R p = Ok (l, f') → scops_pread env (S (List.length (ftext f))) R p f = Ok (l, f').
Proof.
  unfold osl_scop_pread. intros E. destruct (RelTextProofs.bind_ok _ _ _ E) as ([l1 f1] & -> & E1).
  destruct (RelTextProofs.bind_ok _ _ _ E1) as (b & _ & E2). exact E2.
Qed.
Lemma wp_scop_pread env h reg R p f l f' Q : config_ok cfg → supported cfg p → registry_ok R → sees h (m_ifaces reg R) → osl_scop_pread env f R p = Ok (l, f') →
  (own h ∗ (∀ q, own h -∗ M (m_scops q l) -∗ M (m_lost (lost_scop_read env R p f)) -∗ Q (q, f')))%I ⊢ wp (osl_scop_pread_h env f reg p) Q.
Proof.
  intros Hc Hp HR HS E%pread_loop. pose proof (sim_scops env Hc (S (List.length (ftext f))) h reg R p f (λ xt pt, <affine> ⌜xt = (l, f')⌝ -∗ Q pt)%I Hp HR HS) as W.
  rewrite E in W. iIntros "[O K]". iApply (wp_wand _ (λ pt, <affine> ⌜(l, f') = (l, f')⌝ -∗ Q pt)%I). iSplitR "".
  - iApply W. iFrame "O". iIntros (q l2 f2) "O P L". iIntros ([= -> ->]). iApply ("K" with "O P L").
  - iIntros (a) "H". by iApply "H".
Qed.
Theorem C60_scop : ∀ env h reg R p f l f', config_ok cfg → supported cfg p → registry_ok R → within h (m_ifaces reg R) →
  osl_scop_pread env f R p = Ok (l, f') →
  runs_to (osl_scop_pread_h env f reg p) h (λ x h', snd x = f' ∧ (exactly h ⋆ m_scops (fst x) l ⋆ m_lost (lost_scop_read env R p f)) h').
Proof.
  intros env h reg R p f l f' Hc Hp HR HS E%pread_loop. pose proof (C60_scops env h reg R p f Hc Hp HR HS) as W. unfold reads in W. rewrite E in W. exact W.
Qed.

(** osl_scop_read and osl_statement_read make the default registry and release it. *)
Lemma wp_scop_read env f l f' Q : config_ok cfg → osl_scop_read env f = Ok (l, f') →
  (∀ p, M (m_scops p l) -∗ M (m_lost (lost_scop_read env default_registry (osl_util_get_precision env) f)) -∗ Q (p, f'))%I ⊢ wp (osl_scop_read_h env f) Q.
Proof.
  intros Hc E. iIntros "K". unfold osl_scop_read_h. iApply wp_bind. iApply wp_default_registry. iIntros (q) "R".
  rewrite (M_own (m_ifaces q default_registry)). iDestruct "R" as (hr) "[%Hr R]".
  iApply wp_bind. iApply (wp_scop_pread env hr q default_registry _ f l f'); [done|apply C38_precision_supported|apply default_ok|by apply sees_self|done|].
  iFrame "R". iIntros (p) "R P L". iApply wp_bind. iApply (wp_interface_free q default_registry). iPoseProof (M_back _ _ Hr with "R") as "R". iFrame "R".
  iApply wp_ret. iApply ("K" with "P L").
Qed.
Theorem C60_scop_read : ∀ env h f l f', config_ok cfg → osl_scop_read env f = Ok (l, f') →
  runs_to (osl_scop_read_h env f) h
    (λ x h', snd x = f' ∧ (exactly h ⋆ m_scops (fst x) l ⋆ m_lost (lost_scop_read env default_registry (osl_util_get_precision env) f)) h').
Proof.
  intros env h f l f' Hc E. set (lost := lost_scop_read _ _ _ _).
  apply (runs_intro (own h) (λ x, <affine> ⌜snd x = f'⌝ ∗ own h ∗ M (m_scops (fst x) l) ∗ M (m_lost lost)))%I; [|done|].
  - iIntros "O". iApply (wp_scop_read env f l f'); [done|done|]. iIntros (p) "P L". cbn [fst snd]. iFrame. done.
  - intros [p t'] h' (h1 & h2 & -> & Hd & [E1 E2] & h3 & h4 & -> & Hd2 & E3 & h5 & h6 & -> & Hd3 & E4 & E5).
    change (h1 = ∅) in E1. cbn in E3. subst h1 h3. rewrite left_id_L. split; [exact E2|]. exists h, (h5 ∪ h6). split_and!; [done|done|done|].
    exists h5, h6. split_and!; [done|done|exact E4|exact E5].
Qed.
Theorem C60_statement_read : ∀ env h f, config_ok cfg →
  reads (osl_statement_read env f) (osl_statement_read_h env f) h (λ q s, m_statements q [s]) (lost_statement env default_registry (osl_util_get_precision env) f).
Proof.
  intros env h f Hc. apply reads_intro. intros Q. iIntros "[O K]". unfold osl_statement_read, osl_statement_read_h.
  rewrite -(ReadHeapProofs.bind_ok (osl_statement_pread _ _ _ _)). 
  iApply sim_heap. iApply wp_default_registry. iIntros (q) "R". rewrite (M_own (m_ifaces q default_registry)). iDestruct "R" as (hr) "[%Hr R]".
  iApply sim_bind. iApply sim_statement_pread; [done|apply C38_precision_supported|by apply (sees_self hr)|].
  iFrame "R". iIntros (p s f') "R P L". iApply sim_heap. iApply (wp_interface_free q default_registry). iPoseProof (M_back _ _ Hr with "R") as "R". iFrame "R".
  iApply sim_ret. iApply ("K" with "O [P] L"). unfold m_statements. by iApply M_chain_one.
Qed.

(** ** What is read can be released *)
Lemma read_typed q R g : supported cfg q → generic_read cfg q R g → typed_generic g.
Proof. intros Hq H. destruct (read_clonable cfg q Hq) as (_ & _ & H2). apply H2 in H. by apply (typed_all cfg). Qed.
Lemma reads_typed q R l : supported cfg q → generics_read cfg q R l → typed_generics l.
Proof. intros Hq [H _]. revert H. apply Forall_impl. intros g. by apply read_typed. Qed.
Lemma scop_read_typed p q R s : supported cfg q → scop_read cfg p q R s → typed_scop s.
Proof.
  intros Hq (_ & _ & _ & _ & H1 & _ & H2 & H3). split_and!.
  - revert H1. apply Forall_impl. intros g. by apply read_typed.
  - by eapply reads_typed.
  - revert H2. apply Forall_impl. intros t (_ & _ & _ & H). by eapply reads_typed.
Qed.
(** Reading a file and releasing the scops leaves the memory as it was, but for the names of the closing tags the readers met. *)
Theorem C60_read_free : ∀ env h f l f', config_ok cfg → osl_scop_read env f = Ok (l, f') →
  runs_to (x <== osl_scop_read_h env f ;; osl_scop_free_f (fst x)) h
    (λ _, exactly h ⋆ m_lost (lost_scop_read env default_registry (osl_util_get_precision env) f)).
Proof.
  intros env h f l f' Hc E. set (lost := lost_scop_read _ _ _ _).
  assert (Forall typed_scop l) as T.
  { destruct (C58_scop_read cfg env f Hc) as [_ C]. destruct (C _ _ E) as [_ F]. revert F. apply Forall_impl. intros s. apply scop_read_typed, C38_precision_supported. }
  apply (runs_intro (own h) (λ _, own h ∗ M (m_lost lost)))%I; [|done|].
  - iIntros "O". iApply wp_bind. iApply (wp_scop_read env f l f'); [done|done|]. iIntros (p) "P L". cbn [fst]. iApply (wp_scop_free p l _ T). iFrame.
  - intros _ h' (h1 & h2 & -> & Hd & E1 & E2). exists h1, h2. split_and!; [done|done|exact E1|exact E2].
Qed.
(** What the library prints it reads without losing anything: reading the text of savable scops gives memory that holds exactly the
    scops, and freeing what is read gives the memory back as it was. *)
Theorem C60_printed : ∀ env p h l text, config_ok cfg → supported cfg p → osl_util_get_precision env = p →
  List.Forall (SaveSpec.scop_ok cfg p default_registry) l → osl_scop_print l = Ok text → TextSpec.short_lines text →
  runs_to (osl_scop_read_h env (File text false)) h
    (λ x h', snd x = File [] true ∧ (exactly h ⋆ m_scops (fst x) (List.map SaveSpec.reread_scop l)) h') ∧
  runs_to (x <== osl_scop_read_h env (File text false) ;; osl_scop_free_f (fst x)) h (λ _ h', h' = h).
Proof.
  intros env p h l text Hc Hs Hp Hl E Ht.
  assert (osl_scop_read env (File text false) = Ok (List.map SaveSpec.reread_scop l, File [] true)) as R.
  { unfold osl_scop_read. rewrite Hp. apply (C35_scop_roundtrip cfg env p default_registry l text); done. }
  pose proof (ReadHeapProofs7.printed_clean cfg env p Hc Hs Hp default_registry l text Hl E Ht) as N.
  split.
  - intros hf Hd. destruct (C60_scop_read env h _ _ _ Hc R hf Hd) as (a & h' & E1 & Hd' & Es & h1 & h2 & -> & D & E2 & h3 & h4 & -> & D2 & E3 & E4).
    exists a, (h1 ∪ (h3 ∪ h4)). split_and!; [done|done|done|]. rewrite Hp N in E4. cbn in E4. destruct E4 as [-> _].
    exists h1, h3. rewrite right_id_L in D |- *. done.
  - intros hf Hd. destruct (C60_read_free env h _ _ _ Hc R hf Hd) as (a & h' & E1 & Hd' & h1 & h2 & -> & D & E2 & E4).
    exists a, (h1 ∪ h2). split_and!; [done|done|]. rewrite Hp N in E4. cbn in E4, E2. destruct E4 as [-> _]. rewrite right_id_L. done.
Qed.
(** The strings that are lost are names of closing tags. *)
Lemma closing_closing t : all_closing (closing t).
Proof. destruct t as [[|c t]|]; cbn; [constructor| |constructor]. destruct (ceqb c c_slash) eqn:E; [|constructor]. apply UtilProofs.ceqb_eq in E. subst c. repeat constructor. by exists t. Qed.
Lemma after_closing {A X} (r : res (A * X)) f : (∀ s, all_closing (f s)) → all_closing (after r f).
Proof. intros H. destruct r as [[a s]| | |]; cbn; [apply H|constructor..]. Qed.
Lemma app_closing a b : all_closing a → all_closing b → all_closing (a ++ b).
Proof. unfold all_closing. intros. apply Forall_app. done. Qed.
Lemma nil_closing : all_closing [].
Proof. constructor. Qed.
Hint Resolve closing_closing app_closing nil_closing after_closing : core.
Lemma symbol_closing one lost s : (∀ s, all_closing (lost s)) → all_closing (lost_symbol one lost s).
Proof. intros H. unfold lost_symbol. auto 20. Qed.
Lemma symbols_closing one lost s : (∀ s, all_closing (lost s)) → all_closing (lost_symbols one lost s).
Proof.
  intros H. unfold lost_symbols. destruct (osl_util_read_int_s s) as [[nb s']| | |]; auto. generalize (Z.to_nat nb) as k. intros k. revert s'. induction k as [|k IH]; intros s'; cbn [lost_symbols_loop]; auto using symbol_closing.
Qed.
Lemma extension_closing one lost R t c : (∀ s, all_closing (lost s)) → all_closing (lost_in_extension one lost R t c).
Proof. intros H. unfold lost_in_extension. destruct (osl_interface_lookup R t) as [[u []]|]; auto. destruct c; auto using symbols_closing. Qed.
Lemma one_closing env fuel : ∀ R s, all_closing (lost_one env fuel R s).
Proof.
  induction fuel as [|k IH]; intros R s; cbn [lost_one]; auto. destruct (osl_util_read_tag_s s) as [[t s']| | |]; auto. apply app_closing; auto.
  destruct (usable_tag t) as [[]| | |]; auto using extension_closing.
Qed.
Lemma file_one_closing env R f : all_closing (lost_file_one env R f).
Proof.
  unfold lost_file_one. destruct (osl_util_read_tag_f f) as [[t s']| | |]; auto. apply app_closing; auto.
  destruct (usable_tag t) as [[]| | |]; auto. destruct (osl_util_read_uptoendtag_f _ _) as [[]| | |]; auto. apply extension_closing. intros. apply one_closing.
Qed.
Lemma file_closing env R f : all_closing (lost_file env R f).
Proof.
  unfold lost_file. destruct (osl_util_read_uptoendtag_f _ _) as [[[s|]]| | |]; auto. unfold lost_generics. generalize (Datatypes.S (List.length s)) as k. intros k. revert s.
  induction k as [|k IH]; intros s; cbn [lost_loop]; auto. destruct s; auto. apply app_closing; [apply one_closing|auto].
Qed.
Lemma statement_closing env R p f : all_closing (lost_statement env R p f).
Proof.
  unfold lost_statement. apply after_closing. intros f1. destruct (osl_util_read_int_f f1) as [[n f2]| | |]; auto. generalize (Z.to_nat n) as k. intros k. revert f2.
  induction k as [|k IH]; intros f2; cbn [lost_extensions]; auto using file_one_closing.
Qed.
Lemma scop_closing env R p f : all_closing (lost_scop env R p f).
Proof.
  unfold lost_scop. apply after_closing. intros f1. apply after_closing. intros f2. destruct (osl_util_read_int_f f2) as [[b f3]| | |]; auto.
  apply app_closing; [destruct (0 <? b); auto using file_one_closing|]. apply after_closing. intros f4. destruct (osl_util_read_int_f f4) as [[n f5]| | |]; auto.
  apply app_closing; [|apply after_closing; intros; apply file_closing]. generalize (Z.to_nat n) as k. intros k. revert f5.
  induction k as [|k IH]; intros f5; cbn [lost_statements]; auto using statement_closing.
Qed.
Theorem C60_lost : ∀ env R p f, all_closing (lost_scop_read env R p f).
Proof.
  intros env R p f. unfold lost_scop_read. generalize (Datatypes.S (List.length (ftext f))) as k. intros k. revert f.
  induction k as [|k IH]; intros f; cbn [lost_scops]; auto. destruct (osl_util_read_uptotag_f f uri_scop) as [[[t|] f1]| | |]; auto using scop_closing.
Qed.
End P.
Print Assumptions C60_strings. Print Assumptions C60_data. Print Assumptions C60_relation. Print Assumptions C60_registry. Print Assumptions C60_registry_free.
Print Assumptions C60_generic. Print Assumptions C60_symbols. Print Assumptions C60_statement. Print Assumptions C60_scops. Print Assumptions C60_scop.
Print Assumptions C60_scop_read. Print Assumptions C60_statement_read. Print Assumptions C60_read_free. Print Assumptions C60_lost. Print Assumptions C60_printed.

(** The hypotheses hold, and a scop with several extensions and statements, printed and read back, loses nothing. *)
Example C60_witness : registry_ok default_registry ∧ lost_scop_read (cfg := lp64_debug) (Some (lit "64")) default_registry 64 (File wr_text false) = [] ∧
  (∃ l f, @osl_scop_read lp64_debug (Some (lit "64")) (File wr_text false) = Ok (l, f) ∧ List.length l = 2%nat).
Proof. split; [exact default_ok|]. split; [vm_compute; reflexivity|]. eexists _, _. split; [exact (proj1 C35_witness)|reflexivity]. Qed.
(** C60_printed on two scops with several extensions. *)
Example C60_printed_witness : ∀ h, runs_to (x <== osl_scop_read_h (cfg := lp64_debug) (al := bump_allocator obj) (Some (lit "64")) (File wr_text false) ;; osl_scop_free_f (fst x)) h (λ _ h', h' = h).
Proof.
  intros h. destruct C35_witness as (_ & W1 & W2 & W3). destruct C35_prints as [W4 W5].
  apply (C60_printed lp64_debug (bump_allocator obj) (Some (lit "64")) 64 h [wr_scop; PropScop.ex_scop] wr_text W3 W2 W1 (proj1 C35_scop_ok) W4 W5).
Qed.
(** On concrete memory: the memory is empty again after reading and freeing two scops. *)
Definition read_and_free (text : str) : oprog unit :=
  x <== osl_scop_read_h (cfg := lp64_debug) (al := bump_allocator obj) (Some (lit "64")) (File text false) ;; osl_scop_free_f (fst x).
Example C60_run : match read_and_free wr_text ∅ with Ok (_, h) => map_to_list h = [] | _ => False end.
Proof. vm_compute. reflexivity. Qed.
(** A closing tag among the extensions is accepted, and the string that holds its name is never released. *)
Definition leak_text : str := lit "<OpenScop>" ++ [c_nl] ++ lit "C" ++ [c_nl] ++ lit "CONTEXT" ++ [c_nl] ++ lit "0 2 0 0 0 0" ++ [c_nl] ++ lit "0" ++ [c_nl] ++ lit "0" ++ [c_nl]
  ++ lit "</comment></OpenScop>" ++ [c_nl].
Theorem C60_leak_refuted : ∃ s f, @osl_scop_read lp64_debug (Some (lit "64")) (File leak_text false) = Ok ([s], f) ∧ sc_ext s = [] ∧
  match read_and_free leak_text ∅ with Ok (_, h) => map snd (map_to_list h) = [CBlock (BStr (lit "/comment"))] | _ => False end.
Proof. eexists _, _. split; [vm_compute; reflexivity|]. split; [reflexivity|]. vm_compute. reflexivity. Qed.
Print Assumptions C60_leak_refuted.
(** An empty tag: the readers look at a name that osl_util_read_tag has not written. *)
Theorem C60_empty_tag_refuted : ∀ cfg env R s, @osl_generic_sread_one cfg env R (lit "<>" ++ s) = UB.
Proof. intros. reflexivity. Qed.
Print Assumptions C60_empty_tag_refuted.
